(** * Independent specification of the proleptic Gregorian calendar *)
From Coq Require Import ZArith Bool Lia.
Local Open Scope Z_scope.

Definition leap (y : Z) : bool := ((y mod 4 =? 0) && negb (y mod 100 =? 0)) || (y mod 400 =? 0).
Definition month_len (y m : Z) : Z :=
  match m with
  | 2 => if leap y then 29 else 28
  | 4 | 6 | 9 | 11 => 30
  | _ => 31
  end.
(** Days from 0001-01-01 to the first of January of year y. *)
Definition days_before_year (y : Z) : Z := 365 * (y - 1) + (y - 1) / 4 - (y - 1) / 100 + (y - 1) / 400.
(** Days from the first of January to the first of month m. *)
Definition days_before_month (y m : Z) : Z :=
  match m with
  | 1 => 0 | 2 => 31 | 3 => 59 | 4 => 90 | 5 => 120 | 6 => 151 | 7 => 181 | 8 => 212
  | 9 => 243 | 10 => 273 | 11 => 304 | _ => 334
  end + (if (2 <? m) && leap y then 1 else 0).
(** Number of days from 0001-01-01 to the given date. *)
Definition day_number (y m d : Z) : Z := days_before_year y + days_before_month y m + (d - 1).
(** Number of minutes from 0001-01-01T00:00. *)
Definition minute_number (y m d h mi : Z) : Z := (day_number y m d * 24 + h) * 60 + mi.
Definition valid_date (y m d : Z) : Prop := 1 <= m <= 12 /\ 1 <= d <= month_len y m.
Definition valid_minute (y m d h mi : Z) : Prop := valid_date y m d /\ 0 <= h <= 23 /\ 0 <= mi <= 59.

Lemma div_step y k : 0 < k -> y / k = (y - 1) / k + (if y mod k =? 0 then 1 else 0).
Proof.
  intros H. assert (D := Z.div_mod y k ltac:(lia)). assert (M := Z.mod_pos_bound y k H).
  destruct (Z.eqb_spec (y mod k) 0) as [E|E].
  - rewrite <- (Z.div_unique (y - 1) k (y / k - 1) (k - 1)); lia.
  - rewrite <- (Z.div_unique (y - 1) k (y / k) (y mod k - 1)); lia.
Qed.
Lemma dby_succ y : days_before_year (y + 1) = days_before_year y + (if leap y then 366 else 365).
Proof.
  unfold days_before_year, leap. replace (y + 1 - 1) with y by lia.
  rewrite (div_step y 4), (div_step y 100), (div_step y 400) by lia.
  assert (D4 := Z.div_mod y 4 ltac:(lia)). assert (D100 := Z.div_mod y 100 ltac:(lia)). assert (D400 := Z.div_mod y 400 ltac:(lia)).
  assert (M4 := Z.mod_pos_bound y 4 ltac:(lia)). assert (M100 := Z.mod_pos_bound y 100 ltac:(lia)).
  assert (M400 := Z.mod_pos_bound y 400 ltac:(lia)).
  destruct (Z.eqb_spec (y mod 4) 0), (Z.eqb_spec (y mod 100) 0), (Z.eqb_spec (y mod 400) 0); cbn [andb orb negb]; lia.
Qed.
Lemma month_cases m : 1 <= m <= 12 ->
  m = 1 \/ m = 2 \/ m = 3 \/ m = 4 \/ m = 5 \/ m = 6 \/ m = 7 \/ m = 8 \/ m = 9 \/ m = 10 \/ m = 11 \/ m = 12.
Proof. lia. Qed.
Lemma dbm_succ y m : 1 <= m < 12 -> days_before_month y (m + 1) = days_before_month y m + month_len y m.
Proof.
  intros H. destruct (month_cases m) as [|[|[|[|[|[|[|[|[|[|[|]]]]]]]]]]]; try lia; subst m;
  unfold days_before_month, month_len; destruct (leap y); reflexivity.
Qed.
Lemma dbm_12 y : days_before_month y 12 + 31 = if leap y then 366 else 365.
Proof. unfold days_before_month. destruct (leap y); reflexivity. Qed.
Lemma dbm_1 y : days_before_month y 1 = 0.
Proof. reflexivity. Qed.
Lemma month_len_bounds y m : 28 <= month_len y m <= 31.
Proof.
  unfold month_len. destruct m as [|p|p]; try lia.
  repeat (destruct p as [p|p|]; try lia; try (destruct (leap y); lia)).
Qed.
Lemma dbm_mono y m k : 1 <= m -> 0 < k -> m + k <= 12 -> days_before_month y m + month_len y m <= days_before_month y (m + k).
Proof.
  intros H0 Hk. revert H0. revert m. pattern k. apply (Zlt_lower_bound_ind _ 1); [|lia].
  clear k Hk. intros k IH Hk m H0 H1. destruct (Z.eq_dec k 1) as [->|N].
  - rewrite dbm_succ by lia. lia.
  - specialize (IH (k - 1) ltac:(lia) (m + 1) ltac:(lia) ltac:(lia)).
    replace (m + 1 + (k - 1)) with (m + k) in IH by lia.
    rewrite dbm_succ in IH by lia. generalize (month_len_bounds y (m+1)). lia.
Qed.
Lemma date_in_year y m d : valid_date y m d -> 0 <= days_before_month y m + (d - 1) < (if leap y then 366 else 365).
Proof.
  intros [H1 H2].
  destruct (month_cases m H1) as [|[|[|[|[|[|[|[|[|[|[|]]]]]]]]]]]; subst m; unfold days_before_month, month_len in *;
  destruct (leap y); cbv beta iota delta [Z.ltb Z.compare Pos.compare Pos.compare_cont andb] in *; lia.
Qed.
Lemma dby_mono y k : 0 < k -> days_before_year y + (if leap y then 366 else 365) <= days_before_year (y + k).
Proof.
  intros Hk. revert y. pattern k. apply (Zlt_lower_bound_ind _ 1); [|lia]. clear k Hk.
  intros k IH Hk y. destruct (Z.eq_dec k 1) as [->|N].
  - rewrite dby_succ. lia.
  - specialize (IH (k - 1) ltac:(lia) (y + 1)). replace (y + 1 + (k - 1)) with (y + k) in IH by lia.
    rewrite dby_succ in IH. destruct (leap (y+1)); lia.
Qed.

(** The day number orders dates lexicographically. *)
Definition date_lt (y m d y' m' d' : Z) : Prop := y < y' \/ (y = y' /\ (m < m' \/ (m = m' /\ d < d'))).
Lemma day_number_lt y m d y' m' d' : valid_date y m d -> valid_date y' m' d' -> date_lt y m d y' m' d' ->
  day_number y m d < day_number y' m' d'.
Proof.
  intros V V' [L|[E [L|[E' L]]]]; unfold day_number.
  - assert (D := date_in_year _ _ _ V). assert (D' := date_in_year _ _ _ V').
    assert (M := dby_mono y (y' - y) ltac:(lia)). replace (y + (y' - y)) with y' in M by lia. lia.
  - subst y'. destruct V as [V1 V2], V' as [V1' V2'].
    assert (M := dbm_mono y m (m' - m) ltac:(lia) ltac:(lia) ltac:(lia)). replace (m + (m' - m)) with m' in M by lia. lia.
  - subst. lia.
Qed.
Lemma day_number_inj y m d y' m' d' : valid_date y m d -> valid_date y' m' d' ->
  day_number y m d = day_number y' m' d' -> y = y' /\ m = m' /\ d = d'.
Proof.
  intros V V' E.
  assert (C : date_lt y m d y' m' d' \/ date_lt y' m' d' y m d \/ (y = y' /\ m = m' /\ d = d')) by (unfold date_lt; lia).
  destruct C as [C|[C|C]]; [| |exact C].
  - generalize (day_number_lt _ _ _ _ _ _ V V' C). lia.
  - generalize (day_number_lt _ _ _ _ _ _ V' V C). lia.
Qed.
Lemma minute_number_inj y m d h mi y' m' d' h' mi' :
  valid_minute y m d h mi -> valid_minute y' m' d' h' mi' ->
  minute_number y m d h mi = minute_number y' m' d' h' mi' -> y = y' /\ m = m' /\ d = d' /\ h = h' /\ mi = mi'.
Proof.
  intros [V [H1 H2]] [V' [H1' H2']] E. unfold minute_number in E.
  assert (day_number y m d = day_number y' m' d' /\ h = h' /\ mi = mi') as (D & Hh & Hm) by lia.
  destruct (day_number_inj _ _ _ _ _ _ V V' D) as (? & ? & ?). auto.
Qed.
