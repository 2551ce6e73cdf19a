(** * Lemmas about Clock *)
From Coq Require Import Reals ZArith List Bool Lia Lra.
From Flocq Require Import Core.
From Verif Require Import Num Flt Vec M_quaternion S_cal M_jday.
Import ListNotations.

Lemma is_leap_year_ok y : is_leap_year y = leap y.
Proof.
  unfold is_leap_year, leap.
  assert (D4 := Z.div_mod y 4 ltac:(lia)). assert (D100 := Z.div_mod y 100 ltac:(lia)). assert (D400 := Z.div_mod y 400 ltac:(lia)).
  assert (M4 := Z.mod_pos_bound y 4 ltac:(lia)). assert (M100 := Z.mod_pos_bound y 100 ltac:(lia)).
  assert (M400 := Z.mod_pos_bound y 400 ltac:(lia)).
  destruct (Z.eqb_spec (y mod 4) 0), (Z.eqb_spec (y mod 100) 0), (Z.eqb_spec (y mod 400) 0); cbn [andb orb negb]; try reflexivity; lia.
Qed.
Lemma days_in_month_ok y m : (1 <= m <= 12)%Z -> days_in_month m (leap y) = month_len y m.
Proof.
  intros H. destruct (month_cases m H) as [|[|[|[|[|[|[|[|[|[|[|]]]]]]]]]]]; subst m; reflexivity.
Qed.

(** A clock holding a legal calendar minute, in the state the constructor leaves [leap_year]/[leap_second]. *)
Definition clock_ok {T} (c : Clock T) : Prop :=
  valid_minute (year c) (month c) (day c) (hour c) (minute c) /\ leap_year c = leap (year c) /\ leap_second c = false.
Definition clock_minute {T} (c : Clock T) : Z := minute_number (year c) (month c) (day c) (hour c) (minute c).
(** the date and minute, as one tuple *)
Definition fields {T} (c : Clock T) := (year c, month c, day c, hour c, minute c).

Section Gen.
Context {T : Type} `{NT : Num T}.
Definition lands (dt : T) (c : Clock T) : bool := nltb (nabs (nsub (nadd (second c) dt) (nofZ 60))) (ndec 1 100000).

Lemma tick_stay (dt : T) c : clock_ok c -> lands dt c = false ->
  tick dt c = mkClock (nadd (absolute c) dt) (year c) (month c) (day c) (hour c) (minute c) (nadd (second c) dt) (leap_year c) false.
Proof.
  intros [[[Hm Hd] [Hh Hmi]] [HL HS]] HN. unfold tick. unfold lands in HN. rewrite HS, HN. cbn [negb andb orb].
  replace (minute c =? 60)%Z with false by (symmetry; apply Z.eqb_neq; lia).
  replace (hour c =? 24)%Z with false by (symmetry; apply Z.eqb_neq; lia).
  rewrite HL, days_in_month_ok by exact Hm.
  replace (month_len (year c) (month c) <? day c)%Z with false by (symmetry; apply Z.ltb_ge; lia).
  replace (month c =? 13)%Z with false by (symmetry; apply Z.eqb_neq; lia). reflexivity.
Qed.

Lemma tick_carry (dt : T) c : clock_ok c -> lands dt c = true ->
  clock_ok (tick dt c) /\ clock_minute (tick dt c) = (clock_minute c + 1)%Z /\
  second (tick dt c) = nofZ 0 /\ absolute (tick dt c) = nadd (absolute c) dt.
Proof.
  intros [[[Hm Hd] [Hh Hmi]] [HL HS]] HN. unfold tick, clock_minute, clock_ok. unfold lands in HN.
  rewrite HS, HN. cbn [negb andb orb].
  assert (B := month_len_bounds (year c) (month c)).
  destruct (Z.eqb_spec (minute c + 1) 60) as [E1|E1].
  2:{ replace (hour c =? 24)%Z with false by (symmetry; apply Z.eqb_neq; lia).
      rewrite HL, days_in_month_ok by exact Hm.
      replace (month_len (year c) (month c) <? day c)%Z with false by (symmetry; apply Z.ltb_ge; lia).
      replace (month c =? 13)%Z with false by (symmetry; apply Z.eqb_neq; lia).
      cbn. unfold minute_number, valid_minute, valid_date. repeat split; auto; lia. }
  destruct (Z.eqb_spec (hour c + 1) 24) as [E2|E2].
  2:{ rewrite HL, days_in_month_ok by exact Hm.
      replace (month_len (year c) (month c) <? day c)%Z with false by (symmetry; apply Z.ltb_ge; lia).
      replace (month c =? 13)%Z with false by (symmetry; apply Z.eqb_neq; lia).
      cbn. unfold minute_number, valid_minute, valid_date. repeat split; auto; lia. }
  rewrite HL, days_in_month_ok by exact Hm.
  destruct (Z.ltb_spec (month_len (year c) (month c)) (day c + 1)) as [E3|E3].
  2:{ replace (month c =? 13)%Z with false by (symmetry; apply Z.eqb_neq; lia).
      cbn. unfold minute_number, day_number, valid_minute, valid_date. repeat split; auto; lia. }
  destruct (Z.eqb_spec (month c + 1) 13) as [E4|E4].
  - cbn. rewrite is_leap_year_ok.
    assert (D := dby_succ (year c)). assert (D12 := dbm_12 (year c)).
    assert (M12 : month c = 12%Z) by lia. rewrite M12 in *.
    unfold minute_number, day_number, valid_minute, valid_date. rewrite dbm_1.
    change (month_len (year c) 12) with 31%Z in *. change (month_len (year c + 1) 1) with 31%Z.
    repeat split; auto; lia.
  - cbn. unfold minute_number, day_number, valid_minute, valid_date.
    rewrite dbm_succ by lia. assert (B' := month_len_bounds (year c) (month c + 1)).
    repeat split; auto; lia.
Qed.

(** absolute time *)
Lemma tick_absolute (dt : T) c : absolute (tick dt c) = nadd (absolute c) dt.
Proof.
  unfold tick. repeat match goal with |- context [if ?b then _ else _] => destruct b end; reflexivity.
Qed.
Lemma clock_init_ok y mo d h mi (s : T) : valid_minute y mo d h mi -> clock_ok (Clock_init y mo d h mi s).
Proof. intros V. split; [exact V|]. split; [apply is_leap_year_ok|reflexivity]. Qed.
End Gen.

Lemma tick_stay_ok {T} `{Num T} (dt : T) c : clock_ok c -> lands dt c = false -> clock_ok (tick dt c) /\ fields (tick dt c) = fields c /\ second (tick dt c) = nadd (second c) dt.
Proof.
  intros Hc Hl. rewrite tick_stay by assumption. split; [|split; reflexivity].
  destruct Hc as [V [L S]]. split; [exact V|]. split; [exact L|reflexivity].
Qed.
Lemma tick_ok {T} `{Num T} (dt : T) c : clock_ok c -> clock_ok (tick dt c).
Proof.
  intros Hc. destruct (lands dt c) eqn:E; [apply tick_carry; assumption|apply tick_stay_ok; assumption].
Qed.
Lemma ticks_ok {T} `{Num T} (dts : list T) c : clock_ok c -> clock_ok (ticks dts c).
Proof. revert c; induction dts as [|dt r IH]; intros c Hc; [exact Hc|]. apply IH, tick_ok, Hc. Qed.

Local Open Scope R_scope.
Definition rsum (l : list R) : R := fold_right Rplus 0 l.
Lemma ticks_absolute (dts : list R) (c : Clock R) : absolute (ticks dts c) = absolute c + rsum dts.
Proof.
  revert c; induction dts as [|dt r IH]; intros c; cbn [ticks fold_left rsum fold_right]; [lra|].
  change (absolute (ticks r (tick dt c)) = absolute c + (dt + rsum r)). rewrite IH, tick_absolute. rnumg. lra.
Qed.

Lemma lands_R dt (c : Clock R) : lands dt c = true <-> Rabs (second c + dt - 60) < 1 / 100000.
Proof. unfold lands; rnumg. rewrite Rltb_true. reflexivity. Qed.
Lemma lands_R_false dt (c : Clock R) : lands dt c = false <-> 1 / 100000 <= Rabs (second c + dt - 60).
Proof. unfold lands; rnumg. rewrite Rltb_false. reflexivity. Qed.

Lemma tick_R (dt : R) (c : Clock R) : clock_ok c ->
  clock_ok (tick dt c) /\ absolute (tick dt c) = absolute c + dt /\
  (Rabs (second c + dt - 60) < 1 / 100000 ->
     clock_minute (tick dt c) = (clock_minute c + 1)%Z /\ second (tick dt c) = 0) /\
  (1 / 100000 <= Rabs (second c + dt - 60) ->
     fields (tick dt c) = fields c /\ second (tick dt c) = second c + dt).
Proof.
  intros Hc. split; [apply tick_ok, Hc|]. split; [exact (tick_absolute dt c)|]. split; intros H.
  - apply lands_R in H. destruct (tick_carry dt c Hc H) as (_ & H1 & H2 & _). split; assumption.
  - apply lands_R_false in H. destruct (tick_stay_ok dt c Hc H) as (_ & H1 & H2). split; assumption.
Qed.

(** ** Freezing *)
Lemma ticks_frozen (dts : list R) (c : Clock R) : clock_ok c -> Forall (fun d => 0 <= d) dts ->
  60 + 1 / 100000 <= second c ->
  fields (ticks dts c) = fields c /\ second (ticks dts c) = second c + rsum dts.
Proof.
  revert c; induction dts as [|dt r IH]; intros c Hc HF Hs.
  - split; [reflexivity|]. simpl. lra.
  - inversion HF as [|? ? Hd HF']; subst.
    destruct (tick_R dt c Hc) as (Hc' & _ & _ & St).
    destruct St as [F S]. { rewrite Rabs_pos_eq; lra. }
    change (ticks (dt :: r) c) with (ticks r (tick dt c)).
    destruct (IH (tick dt c) Hc' HF') as [F2 S2]. { rewrite S. lra. }
    rewrite F2, S2, F, S. split; [reflexivity|]. simpl. lra.
Qed.

Lemma ticks_app {T} `{Num T} (a b : list T) c : ticks (a ++ b) c = ticks b (ticks a c).
Proof. apply fold_left_app. Qed.

(** A constant step that never comes within 1e-5 of the minute never advances it. *)
Lemma const_step_frozen (dt : R) (c : Clock R) : clock_ok c -> second c = 0 ->
  (forall k : nat, 1 / 100000 <= Rabs (INR k * dt - 60)) ->
  forall n, fields (ticks (repeat dt n) c) = fields c /\ second (ticks (repeat dt n) c) = INR n * dt.
Proof.
  intros Hc Hs HN n. assert (G : forall n, clock_ok (ticks (repeat dt n) c) /\ fields (ticks (repeat dt n) c) = fields c /\ second (ticks (repeat dt n) c) = INR n * dt).
  { clear n; induction n as [|n IH].
    - simpl. rewrite Hs. repeat split; try apply Hc. lra.
    - destruct IH as (O & F & S). replace (repeat dt (Datatypes.S n)) with (repeat dt n ++ [dt]) by (rewrite <- repeat_cons; reflexivity).
      rewrite ticks_app. cbn [ticks fold_left].
      change (fold_left (fun (c : Clock R) dt => tick dt c) (repeat dt n) c) with (ticks (repeat dt n) c).
      destruct (tick_R dt _ O) as (O' & _ & _ & St).
      destruct St as [F2 S2].
      { rewrite S. specialize (HN (Datatypes.S n)). rewrite S_INR in HN. replace (INR n * dt + dt - 60) with ((INR n + 1) * dt - 60) by ring. exact HN. }
      split; [exact O'|]. split; [congruence|]. rewrite S2, S, S_INR. ring. }
  apply G.
Qed.

Lemma step7_never k : 1 / 100000 <= Rabs (INR k * 7 - 60).
Proof.
  destruct (le_lt_dec k 8) as [H|H].
  - apply le_INR in H. change (INR 8) with (IZR 8) in H || (simpl in H). 
    rewrite Rabs_left1; lra.
  - assert (K : (9 <= k)%nat) by lia. apply le_INR in K. simpl in K. rewrite Rabs_pos_eq; lra.
Qed.

(** ** The same definition in binary64: constant steps that do reach the minute. *)
Fixpoint reaches (dt : b64) (k : nat) (s : b64) : bool :=
  let s' := fadd s dt in
  let l := fltb (fabs (fsub s' (fofZ 60))) (fdec 1 100000) in
  match k with
  | O => l
  | S k => negb l && reaches dt k s'
  end.
Lemma lands_b64 (dt : b64) (c : Clock b64) :
  lands dt c = fltb (fabs (fsub (fadd (second c) dt) (fofZ 60))) (fdec 1 100000).
Proof. reflexivity. Qed.
Lemma reaches_minute (dt : b64) k : forall (c : Clock b64), clock_ok c -> reaches dt k (second c) = true ->
  clock_ok (ticks (repeat dt (S k)) c) /\ clock_minute (ticks (repeat dt (S k)) c) = (clock_minute c + 1)%Z /\
  second (ticks (repeat dt (S k)) c) = fofZ 0.
Proof.
  induction k as [|k IH]; intros c Hc HR.
  - cbn [reaches] in HR. rewrite <- lands_b64 in HR. cbn [repeat ticks fold_left].
    destruct (tick_carry dt c Hc HR) as (H1 & H2 & H3 & _). repeat split; try apply H1; assumption.
  - cbn [reaches] in HR. apply andb_true_iff in HR. destruct HR as [H1 H2]. apply negb_true_iff in H1.
    rewrite <- lands_b64 in H1.
    change (ticks (repeat dt (S (S k))) c) with (ticks (repeat dt (S k)) (tick dt c)).
    destruct (tick_stay_ok dt c Hc H1) as (Hc' & F & S').
    destruct (IH (tick dt c) Hc') as (G1 & G2 & G3). { rewrite S'. exact H2. }
    split; [exact G1|]. split; [|exact G3]. rewrite G2. unfold clock_minute. unfold fields in F.
    injection F; intros E1 E2 E3 E4 E5. rewrite E1, E2, E3, E4, E5. reflexivity.
Qed.
Lemma reaches_minutes (dt : b64) k n : reaches dt k (fofZ 0) = true ->
  forall c : Clock b64, clock_ok c -> second c = fofZ 0 ->
  clock_ok (ticks (repeat dt (n * S k)) c) /\
  clock_minute (ticks (repeat dt (n * S k)) c) = (clock_minute c + Z.of_nat n)%Z /\
  second (ticks (repeat dt (n * S k)) c) = fofZ 0.
Proof.
  intros HR. induction n as [|n IH]; intros c Hc Hs.
  - cbn [Nat.mul repeat ticks fold_left]. rewrite Z.add_0_r. auto.
  - cbn [Nat.mul]. change (S (k + n * S k)) with (S k + n * S k)%nat. rewrite repeat_app, ticks_app.
    destruct (reaches_minute dt k c Hc) as (H1 & H2 & H3). { rewrite Hs. exact HR. }
    destruct (IH _ H1 H3) as (G1 & G2 & G3). split; [exact G1|]. split; [|exact G3]. rewrite G2, H2. lia.
Qed.
(** steps of 1 s, 0.5 s, 0.1 s, 0.05 s and 0.01 s *)
Lemma steps_reach : Forall (fun p => reaches (fdec 1 (fst p)) (snd p) (fofZ 0) = true)
   [(1%Z, 59%nat); (2%Z, 119%nat); (10%Z, 599%nat); (20%Z, 1199%nat); (100%Z, (60 * 100 - 1)%nat)].
Proof. repeat apply Forall_cons; [vm_compute; reflexivity..|apply Forall_nil]. Qed.

(** ** is_after *)
Definition date_le_fields (t : Date R) (c : Clock R) : Prop :=
  (d_year t <= year c)%Z /\ (d_month t <= month c)%Z /\ (d_day t <= day c)%Z /\
  (d_hour t <= hour c)%Z /\ (d_minute t <= minute c)%Z /\ d_second t <= second c.
Lemma is_after_iff (c : Clock R) t : is_after c t = true <-> date_le_fields t c.
Proof.
  unfold is_after, date_le_fields; rnumg.
  destruct (Z.ltb_spec (year c) (d_year t)); [split; [discriminate|intros; lia]|].
  destruct (Z.ltb_spec (month c) (d_month t)); [split; [discriminate|intros; lia]|].
  destruct (Z.ltb_spec (day c) (d_day t)); [split; [discriminate|intros; lia]|].
  destruct (Z.ltb_spec (hour c) (d_hour t)); [split; [discriminate|intros; lia]|].
  destruct (Z.ltb_spec (minute c) (d_minute t)); [split; [discriminate|intros; lia]|].
  destruct (Rltb_spec (second c) (d_second t)); [split; [discriminate|intros (_&_&_&_&_&K); lra]|].
  split; [intros _|reflexivity]. repeat split; try assumption. lra.
Qed.
(** Seconds since 0001-01-01: the chronological position of a clock and of a target. *)
Definition chron (c : Clock R) : R := 60 * IZR (clock_minute c) + second c.
Definition date_ok (t : Date R) : Prop :=
  valid_minute (d_year t) (d_month t) (d_day t) (d_hour t) (d_minute t) /\ 0 <= d_second t < 60.
Definition date_minute (t : Date R) : Z := minute_number (d_year t) (d_month t) (d_day t) (d_hour t) (d_minute t).
Definition date_chron (t : Date R) : R := 60 * IZR (date_minute t) + d_second t.

Lemma day_number_le y m d y' m' d' : valid_date y m d -> valid_date y' m' d' ->
  (y <= y' -> m <= m' -> d <= d' -> day_number y m d <= day_number y' m' d')%Z.
Proof.
  intros V V' Hy Hm Hd.
  assert (date_lt y m d y' m' d' \/ (y = y' /\ m = m' /\ d = d')%Z) as [L|[E1 [E2 E3]]] by (unfold date_lt; lia).
  - generalize (day_number_lt _ _ _ _ _ _ V V' L). lia.
  - subst. lia.
Qed.
Lemma is_after_sound (c : Clock R) t : clock_ok c -> date_ok t -> is_after c t = true -> date_chron t <= chron c.
Proof.
  intros [V _] [V' _] H. apply is_after_iff in H. destruct H as (H1 & H2 & H3 & H4 & H5 & H6).
  assert (M : (date_minute t <= clock_minute c)%Z).
  { unfold date_minute, clock_minute, minute_number.
    generalize (day_number_le _ _ _ _ _ _ (proj1 V') (proj1 V) H1 H2 H3). lia. }
  apply IZR_le in M. unfold date_chron, chron. lra.
Qed.

(** ** is_minutes_away *)
Definition feb_crossing (t : Date R) (minutes : Z) : Prop :=
  d_month t = 3%Z /\ d_day t = 1%Z /\ d_hour t = 0%Z /\ (d_minute t < minutes)%Z.
Lemma setup_time_ok (c : Clock R) t minutes : date_ok t -> (0 <= minutes < 60)%Z ->
  (feb_crossing t minutes -> leap_year c = leap (d_year t)) ->
  date_ok (setup_time c t minutes) /\ date_minute (setup_time c t minutes) = (date_minute t - minutes)%Z /\
  d_second (setup_time c t minutes) = d_second t.
Proof.
  intros [[[Hm Hd] [Hh Hmi]] Hs] Hw Hfeb. unfold setup_time, date_ok, date_minute.
  destruct (Z.ltb_spec (d_minute t) minutes) as [L|L].
  2:{ cbn [d_year d_month d_day d_hour d_minute d_second]. unfold valid_minute, valid_date, minute_number. repeat split; auto; try lia; lra. }
  destruct (Z.eqb_spec (d_hour t) 0) as [E1|E1].
  2:{ cbn [d_year d_month d_day d_hour d_minute d_second]. unfold valid_minute, valid_date, minute_number. repeat split; auto; try lia; lra. }
  destruct (Z.eqb_spec (d_day t) 1) as [E2|E2].
  2:{ cbn [d_year d_month d_day d_hour d_minute d_second]. unfold valid_minute, valid_date, minute_number, day_number. repeat split; auto; try lia; lra. }
  destruct (Z.eqb_spec (d_month t) 1) as [E3|E3].
  - cbn [d_year d_month d_day d_hour d_minute d_second]. unfold valid_minute, valid_date, minute_number, day_number.
    rewrite E1, E2, E3. rewrite dbm_1.
    assert (D := dby_succ (d_year t - 1)). replace (d_year t - 1 + 1)%Z with (d_year t) in D by lia.
    rewrite <- dbm_12 in D. rewrite D.
    change (month_len (d_year t - 1) 12) with 31%Z. change (days_in_month 12 (leap_year c)) with 31%Z.
    repeat split; auto; try lia; lra.
  - cbn [d_year d_month d_day d_hour d_minute d_second]. unfold valid_minute, valid_date, minute_number, day_number.
    assert (K : days_in_month (d_month t - 1) (leap_year c) = month_len (d_year t) (d_month t - 1)).
    { destruct (Z.eq_dec (d_month t) 3) as [E4|E4].
      - rewrite Hfeb by (repeat split; assumption). apply days_in_month_ok. lia.
      - destruct (month_cases (d_month t) Hm) as [E|[E|[E|[E|[E|[E|[E|[E|[E|[E|[E|E]]]]]]]]]]]; rewrite E in *; try lia; reflexivity. }
    rewrite K. assert (B := month_len_bounds (d_year t) (d_month t - 1)).
    assert (S := dbm_succ (d_year t) (d_month t - 1) ltac:(lia)).
    replace (d_month t - 1 + 1)%Z with (d_month t) in S by lia. rewrite S, E1, E2.
    repeat split; auto; try lia; lra.
Qed.
Lemma is_minutes_away_ok (c : Clock R) t minutes : date_ok t -> (0 <= minutes < 60)%Z ->
  (feb_crossing t minutes -> leap_year c = leap (d_year t)) ->
  exists t', date_ok t' /\ date_chron t' = date_chron t - 60 * IZR minutes /\
    (is_minutes_away c t minutes = true <-> (~ date_le_fields t c /\ date_le_fields t' c)).
Proof.
  intros Ht Hw Hfeb. destruct (setup_time_ok c t minutes Ht Hw Hfeb) as (H1 & H2 & H3).
  exists (setup_time c t minutes). split; [exact H1|]. split.
  - unfold date_chron. rewrite H2, H3, minus_IZR. ring.
  - unfold is_minutes_away. rewrite <- !is_after_iff. destruct (is_after c t); intuition congruence.
Qed.
(** A True answer is at least chronologically no earlier than the set-up time. *)
Lemma is_minutes_away_bound (c : Clock R) t minutes : clock_ok c -> date_ok t -> (0 <= minutes < 60)%Z ->
  (feb_crossing t minutes -> leap_year c = leap (d_year t)) ->
  is_minutes_away c t minutes = true -> date_chron t - 60 * IZR minutes <= chron c.
Proof.
  intros Hc Ht Hw Hfeb H. destruct (setup_time_ok c t minutes Ht Hw Hfeb) as (H1 & H2 & H3).
  unfold is_minutes_away in H. destruct (is_after c t); [discriminate|].
  apply is_after_sound in H; try assumption. unfold date_chron in *. rewrite H2, H3, minus_IZR in H. lra.
Qed.
