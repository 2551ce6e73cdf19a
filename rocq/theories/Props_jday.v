(** * Properties of classes/jday.py *)
From Coq Require Import Reals ZArith List Bool Lia Lra Permutation.
From Flocq Require Import Core.
From Verif Require Import Num Flt Vec M_quaternion S_cal M_jday P_jday P_jdint P_jday2.
Import ListNotations.
Local Open Scope R_scope.

(** C16.  One tick, from any legal calendar state and for any dt: it either leaves the minute alone or moves to the
    next minute of the Gregorian calendar ([clock_minute] counts minutes from 0001-01-01 and, by
    [C16_minute_determines], determines all five fields). *)
Theorem C16_tick : forall (dt : R) (c : Clock R), clock_ok c ->
  clock_ok (tick dt c) /\ absolute (tick dt c) = absolute c + dt /\
  (Rabs (second c + dt - 60) < 1 / 100000 ->
     clock_minute (tick dt c) = (clock_minute c + 1)%Z /\ second (tick dt c) = 0) /\
  (1 / 100000 <= Rabs (second c + dt - 60) ->
     fields (tick dt c) = fields c /\ second (tick dt c) = second c + dt).
Proof. exact tick_R. Qed.
Print Assumptions C16_tick.
Theorem C16_minute_determines : forall y m d h mi y' m' d' h' mi',
  valid_minute y m d h mi -> valid_minute y' m' d' h' mi' ->
  minute_number y m d h mi = minute_number y' m' d' h' mi' -> y = y' /\ m = m' /\ d = d' /\ h = h' /\ mi = mi'.
Proof. exact minute_number_inj. Qed.
Print Assumptions C16_minute_determines.
(** Any history of ticks: the date stays legal, [absolute] is the sum, the minute never goes back. *)
Theorem C16_history : forall (dts : list R) (c : Clock R), clock_ok c ->
  clock_ok (ticks dts c) /\ absolute (ticks dts c) = absolute c + fold_right Rplus 0 dts /\
  (clock_minute c <= clock_minute (ticks dts c) <= clock_minute c + Z.of_nat (length dts))%Z.
Proof. exact (fun dts c H => conj (ticks_ok dts c H) (conj (ticks_absolute dts c) (ticks_minute_mono dts c H))). Qed.
Print Assumptions C16_history.
(** A step dividing the minute keeps exact time for ever (k < 6 000 000, i.e. dt > 1e-5). *)
Theorem C16_divisor_exact : forall (k : nat) (c : Clock R), (1 <= k)%nat -> INR k < 6000000 -> clock_ok c -> second c = 0 ->
  forall n, let c' := ticks (repeat (60 / INR k) n) c in
    clock_ok c' /\ chron c' = chron c + INR n * (60 / INR k) /\ exists r, (r < k)%nat /\ second c' = INR r * (60 / INR k).
Proof. exact divisor_step. Qed.
Print Assumptions C16_divisor_exact.
(** The same in binary64 for dt = 1, 0.5, 0.1, 0.05, 0.01: after n times 60/dt ticks exactly n minutes have passed. *)
Theorem C16_binary64 : forall p, In p [(1%Z, 60%nat); (2%Z, 120%nat); (10%Z, 600%nat); (20%Z, 1200%nat); (100%Z, (60 * 100)%nat)] ->
  forall n (c : Clock b64), clock_ok c -> second c = fofZ 0 ->
  let c' := ticks (repeat (fdec 1 (fst p)) (n * snd p)) c in
  clock_ok c' /\ clock_minute c' = (clock_minute c + Z.of_nat n)%Z /\ second c' = fofZ 0.
Proof.
  intros p Hp n c Hc Hs. assert (SR := steps_reach). rewrite Forall_forall in SR.
  destruct Hp as [<-|[<-|[<-|[<-|[<-|[]]]]]]; cbn [fst snd].
  - exact (reaches_minutes _ 59 n (SR (1%Z, 59%nat) (or_introl eq_refl)) c Hc Hs).
  - exact (reaches_minutes _ 119 n (SR (2%Z, 119%nat) (or_intror (or_introl eq_refl))) c Hc Hs).
  - exact (reaches_minutes _ 599 n (SR (10%Z, 599%nat) (or_intror (or_intror (or_introl eq_refl)))) c Hc Hs).
  - exact (reaches_minutes _ 1199 n (SR (20%Z, 1199%nat) (or_intror (or_intror (or_intror (or_introl eq_refl))))) c Hc Hs).
  - exact (reaches_minutes _ (60*100-1) n (SR (100%Z, (60*100-1)%nat) (or_intror (or_intror (or_intror (or_intror (or_introl eq_refl)))))) c Hc Hs).
Qed.
Print Assumptions C16_binary64.
(** last second of a leap February, last second of a year *)
Example C16_ex : clock_ok (Clock_init 2024 2 29 23 59 59 : Clock R) /\
  fields (tick 1 (Clock_init 2024 2 29 23 59 59 : Clock R)) = (2024, 3, 1, 0, 0)%Z.
Proof.
  split. { apply clock_init_ok. repeat split; cbn; lia. }
  assert (O : clock_ok (Clock_init 2024 2 29 23 59 59 : Clock R)) by (apply clock_init_ok; repeat split; cbn; lia).
  destruct (tick_R 1 _ O) as ((V & _) & _ & A & _). destruct A as [A _]. { cbn -[Rlt]. rewrite Rabs_pos_eq; lra. }
  unfold fields. change (clock_minute _ + 1)%Z with (minute_number 2024 3 1 0 0) in A.
  assert (V' : valid_minute 2024 3 1 0 0) by (repeat split; cbn; lia).
  destruct (minute_number_inj _ _ _ _ _ _ _ _ _ _ V V' A) as (-> & -> & -> & -> & ->). reflexivity.
Qed.
Example C16_ex_b64 : clock_ok (Clock_init 2023 12 31 23 59 (fofZ 0)) /\ second (Clock_init 2023 12 31 23 59 (fofZ 0)) = fofZ 0.
Proof. split; [apply clock_init_ok; repeat split; cbn; lia|reflexivity]. Qed.

(** C17.  Overshooting the minute freezes the calendar for ever. *)
Theorem C17_freeze : forall (dts : list R) (c : Clock R), clock_ok c -> Forall (fun d => 0 <= d) dts ->
  60 + 1 / 100000 <= second c ->
  fields (ticks dts c) = fields c /\ second (ticks dts c) = second c + fold_right Rplus 0 dts.
Proof. exact ticks_frozen. Qed.
Print Assumptions C17_freeze.
Theorem C17_constant_step : forall (dt : R) (c : Clock R), clock_ok c -> second c = 0 ->
  (forall k : nat, 1 / 100000 <= Rabs (INR k * dt - 60)) ->
  forall n, fields (ticks (repeat dt n) c) = fields c /\ second (ticks (repeat dt n) c) = INR n * dt.
Proof. exact const_step_frozen. Qed.
Print Assumptions C17_constant_step.
Theorem C17_dt7_refuted : forall (c : Clock R), clock_ok c -> second c = 0 ->
  forall n, fields (ticks (repeat 7 n) c) = fields c /\ second (ticks (repeat 7 n) c) = INR n * 7.
Proof. exact (fun c Hc Hs => const_step_frozen 7 c Hc Hs step7_never). Qed.
Print Assumptions C17_dt7_refuted.
Example C17_ex : clock_ok (Clock_init 2024 6 1 12 0 63 : Clock R) /\ 60 + 1 / 100000 <= second (Clock_init 2024 6 1 12 0 63 : Clock R)
  /\ clock_ok (Clock_init 2024 6 1 12 0 0 : Clock R).
Proof. split; [apply clock_init_ok; repeat split; cbn; lia|]. split; [cbn -[Rle]; lra|apply clock_init_ok; repeat split; cbn; lia]. Qed.

(** C18 *)
Theorem C18_componentwise : forall (c : Clock R) t, is_after c t = true <->
  (d_year t <= year c)%Z /\ (d_month t <= month c)%Z /\ (d_day t <= day c)%Z /\
  (d_hour t <= hour c)%Z /\ (d_minute t <= minute c)%Z /\ d_second t <= second c.
Proof. exact is_after_iff. Qed.
Print Assumptions C18_componentwise.
Theorem C18_sound : forall (c : Clock R) t, clock_ok c -> date_ok t -> is_after c t = true -> date_chron t <= chron c.
Proof. exact is_after_sound. Qed.
Print Assumptions C18_sound.
Theorem C18_chronological_refuted : exists (c : Clock R) t, clock_ok c /\ 0 <= second c < 60 /\ date_ok t /\ date_chron t < chron c /\ is_after c t = false.
Proof.
  exists (Clock_init 2024 1 1 0 0 0), (mkDate 2023 12 31 0 0 0).
  assert (O : clock_ok (Clock_init 2024 1 1 0 0 0 : Clock R)) by (apply clock_init_ok; repeat split; cbn; lia).
  split; [exact O|]. split; [cbn -[Rle Rlt]; lra|]. split; [split; [repeat split; cbn; lia|cbn -[Rle Rlt]; lra]|].
  split; [|reflexivity]. unfold date_chron, chron, date_minute, clock_minute, minute_number.
  cbn [d_year d_month d_day d_hour d_minute d_second year month day hour minute second Clock_init].
  change (day_number 2023 12 31) with 738884%Z. change (day_number 2024 1 1) with 738885%Z. rewrite !plus_IZR, !mult_IZR, !plus_IZR, !mult_IZR. lra.
Qed.
Print Assumptions C18_chronological_refuted.
Example C18_ex : exists (c : Clock R) t, clock_ok c /\ date_ok t /\ is_after c t = true.
Proof.
  exists (Clock_init 2024 6 10 5 30 20), (mkDate 2023 6 9 5 0 10). split; [apply clock_init_ok; repeat split; cbn; lia|].
  split; [split; [repeat split; cbn; lia|cbn -[Rle Rlt]; lra]|]. apply is_after_iff. unfold date_le_fields. cbn -[Rle]. repeat split; try lia; lra.
Qed.

(** C19.  [is_minutes_away] answers True exactly when the clock is not (field-wise) after the target but is field-wise
    after the instant [minutes] minutes earlier. *)
Theorem C19_setup_instant : forall (c : Clock R) t minutes, date_ok t -> (0 <= minutes < 60)%Z ->
  (feb_crossing t minutes -> leap_year c = leap (d_year t)) ->
  exists t', date_ok t' /\ date_chron t' = date_chron t - 60 * IZR minutes /\
    (is_minutes_away c t minutes = true <-> (is_after c t = false /\ is_after c t' = true)).
Proof.
  intros c t minutes Ht Hw Hf. destruct (is_minutes_away_ok c t minutes Ht Hw Hf) as (t' & H1 & H2 & H3).
  exists t'. split; [exact H1|]. split; [exact H2|]. rewrite H3, <- !is_after_iff. destruct (is_after c t); intuition congruence.
Qed.
Print Assumptions C19_setup_instant.
Theorem C19_sound : forall (c : Clock R) t minutes, clock_ok c -> date_ok t -> (0 <= minutes < 60)%Z ->
  (feb_crossing t minutes -> leap_year c = leap (d_year t)) ->
  is_minutes_away c t minutes = true -> date_chron t - 60 * IZR minutes <= chron c.
Proof. exact is_minutes_away_bound. Qed.
Print Assumptions C19_sound.

Ltac clk := first [apply clock_init_ok; repeat split; cbn; lia | split; [repeat split; cbn; lia|cbn -[Rle Rlt]; lra]].
(** True although the target passed almost a year ago. *)
Theorem C19_true_when_past_refuted : exists (c : Clock R) t, clock_ok c /\ 0 <= second c < 60 /\ date_ok t /\
  is_minutes_away c t 10 = true /\ date_chron t + 364 * 86400 < chron c.
Proof.
  exists (Clock_init 2025 6 9 23 58 0), (mkDate 2024 6 10 0 5 0). split; [clk|]. split; [cbn -[Rle Rlt]; lra|]. split; [clk|]. split.
  - unfold is_minutes_away. replace (is_after _ _) with false by reflexivity. apply is_after_iff. unfold date_le_fields, setup_time.
    cbn -[Rle Z.le]. repeat split; try lia; lra.
  - unfold date_chron, chron, date_minute, clock_minute, minute_number.
    cbn [d_year d_month d_day d_hour d_minute d_second year month day hour minute second Clock_init].
    change (day_number 2025 6 9) with 739410%Z. change (day_number 2024 6 10) with 739046%Z.
    repeat (rewrite plus_IZR || rewrite mult_IZR). lra.
Qed.
Print Assumptions C19_true_when_past_refuted.
(** False although the clock is inside the window. *)
Theorem C19_false_inside_refuted : exists (c : Clock R) t, clock_ok c /\ 0 <= second c < 60 /\ date_ok t /\
  is_minutes_away c t 15 = false /\ date_chron t - 60 * 15 < chron c < date_chron t.
Proof.
  exists (Clock_init 2024 1 15 10 16 10), (mkDate 2024 1 15 10 30 30). split; [clk|]. split; [cbn -[Rle Rlt]; lra|]. split; [clk|]. split.
  - unfold is_minutes_away. replace (is_after _ _) with false by reflexivity.
    destruct (is_after _ _) eqn:E; [|reflexivity]. apply is_after_iff in E. unfold date_le_fields, setup_time in E.
    cbn -[Rle Z.le] in E. destruct E as (_ & _ & _ & _ & _ & E). lra.
  - unfold date_chron, chron, date_minute, clock_minute, minute_number.
    cbn [d_year d_month d_day d_hour d_minute d_second year month day hour minute second Clock_init].
    change (day_number 2024 1 15) with 738899%Z.
    repeat (rewrite plus_IZR || rewrite mult_IZR). lra.
Qed.
Print Assumptions C19_false_inside_refuted.
(** A clock in a non-leap year asked about a March 1st of a leap year: the set-up time is a day early, and the answer
    changes because of it. *)
Theorem C19_feb_refuted : exists (c : Clock R) t, clock_ok c /\ date_ok t /\ feb_crossing t 10 /\
  is_minutes_away c t 10 = true /\
  forall t', date_ok t' -> date_chron t' = date_chron t - 60 * 10 -> is_after c t' = false.
Proof.
  exists (Clock_init 2025 2 28 23 58 0), (mkDate 2024 3 1 0 5 0). split; [clk|]. split; [clk|].
  split; [unfold feb_crossing; cbn; lia|]. split.
  - unfold is_minutes_away. replace (is_after _ _) with false by reflexivity. apply is_after_iff. unfold date_le_fields, setup_time.
    cbn -[Rle Z.le]. repeat split; try lia; lra.
  - intros t' [V S] E.
    assert (V' : valid_minute 2024 2 29 23 55) by (repeat split; cbn; lia).
    assert (M : date_minute t' = minute_number 2024 2 29 23 55).
    { unfold date_chron in E. unfold date_minute at 2 in E.
      cbn [d_year d_month d_day d_hour d_minute d_second] in E.
      change (minute_number 2024 3 1 0 5) with (minute_number 2024 2 29 23 55 + 10)%Z in E. rewrite plus_IZR in E.
      apply Z.le_antisymm; apply Z.lt_succ_r; apply lt_IZR; rewrite succ_IZR; lra. }
    destruct (minute_number_inj _ _ _ _ _ _ _ _ _ _ V V' M) as (E1 & E2 & E3 & E4 & E5).
    destruct (is_after _ _) eqn:A; [|reflexivity]. apply is_after_iff in A. destruct A as (_ & _ & A & _). rewrite E3 in A. cbn in A. lia.
Qed.
Print Assumptions C19_feb_refuted.
Example C19_ex : exists (c : Clock R) t, clock_ok c /\ date_ok t /\ is_minutes_away c t 10 = true.
Proof.
  exists (Clock_init 2024 6 9 23 58 0), (mkDate 2024 6 10 0 5 0). split; [clk|]. split; [clk|].
  unfold is_minutes_away. replace (is_after _ _) with false by reflexivity. apply is_after_iff. unfold date_le_fields, setup_time.
  cbn -[Rle Z.le]. repeat split; try lia; lra.
Qed.

(** C20.  The two Julian dates agree exactly from 1900-03-01 to 2100-02-28, and nowhere else in years >= 1. *)
Theorem C20_julian_agree : forall (c : Clock R) us a, clock_ok c -> (1 <= year c)%Z -> same_instant c us ->
  (julian_date c (hour c) (minute c) (second c) = j_julian_date (mkJ us a) <->
   (1900 < year c \/ year c = 1900 /\ 3 <= month c)%Z /\ (year c < 2100 \/ year c = 2100 /\ month c < 3)%Z).
Proof. exact C20_lemma. Qed.
Print Assumptions C20_julian_agree.
(** A JClock built from the same fields shows the same instant. *)
Theorem C20_constructors : forall y m d h mi s, valid_minute y m d h mi -> (1 <= y <= 9999)%Z -> (0 <= s <= 59)%Z ->
  exists j, JClock_init y m d h mi s = Ok j /\ same_instant (Clock_init y m d h mi (IZR s)) (j_us j).
Proof.
  intros y m d h mi s [[V1 V2] [V3 V4]] Hy Hs. unfold JClock_init, datetime_make.
  replace (_ && _) with true. 2:{ symmetry. rewrite !andb_true_iff, !Z.leb_le. lia. }
  cbn [rbind]. eexists. split; [reflexivity|]. exists (s * 1000000)%Z. split; [lia|].
  split; [cbn [second Clock_init]; rewrite mult_IZR; field|]. unfold clock_minute. cbn [j_us year month day hour minute Clock_init]. ring.
Qed.
Print Assumptions C20_constructors.
Example C20_ex : clock_ok (Clock_init 2024 2 29 12 30 15 : Clock R) /\
  same_instant (Clock_init 2024 2 29 12 30 15) (clock_minute (Clock_init 2024 2 29 12 30 15 : Clock R) * 60000000 + 15000000).
Proof. split; [clk|]. exists 15000000%Z. split; [lia|]. split; [cbn -[Rdiv]; field|reflexivity]. Qed.

(** C21.  [us_sum dts] is the sum over the ticks of dt*1e6 rounded to the nearest integer. *)
Theorem C21_sum : forall dts c c', jticks dts c = Ok c' ->
  j_us c' = (j_us c + us_sum dts)%Z /\ j_absolute c' = j_absolute c.
Proof. exact jticks_ok. Qed.
Print Assumptions C21_sum.
Theorem C21_close : forall dt c c', jtick dt c = Ok c' -> Rabs (IZR (j_us c' - j_us c) / 1000000 - dt) <= 5 / 10000000.
Proof.
  intros dt c c' H. destruct (jtick_ok _ _ _ H) as [-> _].
  replace (j_us c + ZnearestE (dt * 1000000) - j_us c)%Z with (ZnearestE (dt * 1000000)) by ring. apply tick_close.
Qed.
Print Assumptions C21_close.
Theorem C21_whole_microseconds : forall ks c c', jticks (map (fun k => IZR k / 1000000) ks) c = Ok c' ->
  j_us c' = (j_us c + fold_right Z.add 0 ks)%Z.
Proof. intros ks c c' H. destruct (jticks_ok _ _ _ H) as [-> _]. rewrite us_sum_whole. reflexivity. Qed.
Print Assumptions C21_whole_microseconds.
Theorem C21_order_free : forall a b c ca cb, Permutation a b -> jticks a c = Ok ca -> jticks b c = Ok cb -> j_us ca = j_us cb.
Proof. intros a b c ca cb P Ha Hb. destruct (jticks_ok _ _ _ Ha) as [-> _]. destruct (jticks_ok _ _ _ Hb) as [-> _]. rewrite (us_sum_perm _ _ P). reflexivity. Qed.
Print Assumptions C21_order_free.
Theorem C21_short_ticks_lost : forall dts c c', Forall (fun dt => Rabs dt < 5 / 10000000) dts -> jticks dts c = Ok c' -> j_us c' = j_us c.
Proof. intros dts c c' F H. destruct (jticks_ok _ _ _ H) as [-> _]. rewrite (us_sum_lost _ F). ring. Qed.
Print Assumptions C21_short_ticks_lost.
Theorem C21_monotone : forall dts c c', Forall (fun dt => 0 <= dt) dts -> jticks dts c = Ok c' -> (j_us c <= j_us c')%Z.
Proof. intros dts c c' F H. destruct (jticks_ok _ _ _ H) as [-> _]. generalize (us_sum_mono _ F). lia. Qed.
Print Assumptions C21_monotone.
(** It raises only OverflowError, exactly when some intermediate instant is outside years 1..9999. *)
Theorem C21_errors : forall dts c,
  (forall e, jticks dts c = Raise e -> e = OverflowError) /\
  ((exists e, jticks dts c = Raise e) <->
   exists k, (k <= length dts)%nat /\ (1 <= k)%nat /\ ~ (0 <= j_us c + us_sum (firstn k dts) < day_number 10000 1 1 * 86400000000)%Z).
Proof. exact jticks_errors. Qed.
Print Assumptions C21_errors.
Example C21_ex : exists c c', JClock_init 2024 2 28 23 59 59 = Ok c /\ jticks [1; 0.05; 86400] c = Ok c' /\
  j_us c' = (minute_number 2024 3 1 0 0 * 60000000 + 50000)%Z.
Proof.
  eexists. eexists. split; [reflexivity|]. cbn [jticks]. unfold jtick. cbn [j_us].
  rewrite (near_k _ 1000000); [|replace (1 * 1000000 - 1000000) with 0 by lra; rewrite Rabs_R0; lra].
  replace (datetime_ok _) with true by reflexivity. cbn [rbind j_us].
  rewrite (near_k _ 50000); [|replace (0.05 * 1000000 - 50000) with 0 by lra; rewrite Rabs_R0; lra].
  replace (datetime_ok _) with true by reflexivity. cbn [rbind j_us].
  rewrite (near_k _ 86400000000); [|replace (86400 * 1000000 - 86400000000) with 0 by lra; rewrite Rabs_R0; lra].
  replace (datetime_ok _) with true by reflexivity. cbn [rbind]. split; reflexivity.
Qed.

(** C22 *)
Theorem C22_order :
  (forall c t, j_is_after c t = true <-> (t < j_us c)%Z) /\
  (forall c t, minutes_away c t = (IZR t - IZR (j_us c)) / 60000000) /\
  (forall a b, minutes_away a (j_us b) = - minutes_away b (j_us a)) /\
  (forall a b c, minutes_away a (j_us b) + minutes_away b (j_us c) = minutes_away a (j_us c)) /\
  (forall c t, 0 < minutes_away c t <-> (j_us c < t)%Z) /\
  (forall a b, minutes_away a (j_us b) < 0 <-> j_is_after a (j_us b) = true) /\
  (forall c t m, j_is_minutes_away c t m = true <-> -1 < minutes_away c t - m < 1) /\
  (forall a b, (j_eq a b = true <-> minutes_away a (j_us b) = 0) /\
     (j_is_after a (j_us b) = true \/ j_eq a b = true \/ j_is_after b (j_us a) = true)).
Proof. exact C22_lemma. Qed.
Print Assumptions C22_order.
Theorem C22_shift : forall a b dt a' b', jtick dt a = Ok a' -> jtick dt b = Ok b' ->
  minutes_away a' (j_us b') = minutes_away a (j_us b) /\ j_is_after a' (j_us b') = j_is_after a (j_us b).
Proof. exact minutes_away_shift. Qed.
Print Assumptions C22_shift.
(** [sync] reports exactly the jump it makes; after any number of syncs the reports add up to the total. *)
Theorem C22_sync : forall nows c, 
  fold_right Rplus 0 (snd (syncs nows c)) = IZR (j_us (fst (syncs nows c)) - j_us c) / 1000000 /\
  j_us (fst (syncs nows c)) = last nows (j_us c).
Proof. exact syncs_sum. Qed.
Print Assumptions C22_sync.
Example C22_ex : minutes_away (mkJ 0 0) 90000000 = 1.5 /\ j_is_minutes_away (mkJ 0 0) 90000000 2 = true.
Proof. split; [unfold minutes_away; cbn -[Rdiv]; lra|]. apply (proj1 (proj2 (proj2 (proj2 (proj2 (proj2 (proj2 C22_lemma))))))). unfold minutes_away; cbn -[Rdiv Rlt]. lra. Qed.

(** C23 *)
Theorem C23_gmst_agree : forall (c : Clock R) us a, clock_ok c -> (1 <= year c)%Z ->
  (1900 < year c \/ year c = 1900 /\ 3 <= month c)%Z /\ (year c < 2100 \/ year c = 2100 /\ month c < 3)%Z ->
  same_instant c us -> (us mod 1000000 = 0)%Z ->
  centuries_elapsed c = j_centuries_elapsed (mkJ us a) /\ gmst_seconds c = j_gmst_seconds (mkJ us a) /\
  theta_gmst c = j_theta_gmst (mkJ us a).
Proof. exact C23_lemma. Qed.
Print Assumptions C23_gmst_agree.
Theorem C23_theta_range : forall (c : Clock R) j, 0 <= theta_gmst c < 2 * PI /\ 0 <= j_theta_gmst j < 2 * PI.
Proof. exact (fun c j => conj (theta_of _) (theta_of _)). Qed.
Print Assumptions C23_theta_range.
Theorem C23_rate : forall (c c' : Clock R), year c' = year c -> month c' = month c -> day c' = day c -> leap_second c = leap_second c' ->
  exists k : Z, theta_gmst c' - theta_gmst c =
    2 * PI * 1.002737909350795 * ((3600 * IZR (hour c') + 60 * IZR (minute c') + second c') - (3600 * IZR (hour c) + 60 * IZR (minute c) + second c)) / 86400 + 2 * PI * IZR k.
Proof. exact theta_rate. Qed.
Print Assumptions C23_rate.
(** From one day to the next the same rate holds to 10 microseconds of sidereal time (modulo a whole turn, 86400). *)
Theorem C23_midnight : forall (c c' : Clock R), clock_ok c -> clock_ok c' -> (1 <= year c)%Z -> (1 <= year c')%Z ->
  jd_window (year c) (month c) -> jd_window (year c') (month c') ->
  day_number (year c') (month c') (day c') = (day_number (year c) (month c) (day c) + 1)%Z ->
  let tod c := 3600 * IZR (hour c) + 60 * IZR (minute c) + second c in
  Rabs (gmst_seconds c' - (gmst_seconds c + 1.002737909350795 * (86400 + tod c' - tod c)) + 86400) <= 1 / 100000.
Proof. exact gmst_continuous. Qed.
Print Assumptions C23_midnight.
(** Within one second JClock's angle ignores the microseconds of the rotation but counts them in the date. *)
Theorem C23_microseconds_refuted : exists j j', j_us j' = (j_us j + 500000)%Z /\ 
  0 <= j_gmst_seconds j' - j_gmst_seconds j < 1 / 500.
Proof. exact microseconds_lost. Qed.
Print Assumptions C23_microseconds_refuted.
Example C23_ex : clock_ok (Clock_init 2024 12 31 6 0 0 : Clock R) /\ clock_ok (Clock_init 2025 1 1 6 0 0 : Clock R) /\
  jd_window 2024 12 /\ jd_window 2025 1 /\ day_number 2025 1 1 = (day_number 2024 12 31 + 1)%Z /\
  (minute_number 2024 12 31 6 0 * 60000000 mod 1000000 = 0)%Z.
Proof. split; [clk|]. split; [clk|]. unfold jd_window. split; [lia|]. split; [lia|]. split; reflexivity. Qed.
