(** * Integer part of the Julian date *)
From Coq Require Import Reals ZArith List Bool Lia Lra Psatz Permutation.
From Flocq Require Import Core.
From Verif Require Import Num Vec M_quaternion S_cal M_jday P_jday.
Import ListNotations.

(** ** Integer part of Clock.julian_date *)
Definition jd_int (y m d : Z) : Z := (367 * y + d - Z.quot (7 * (y + Z.quot (m + 9) 12)) 4 + Z.quot (275 * m) 9)%Z.

Local Open Scope Z_scope.
(** From 1900-03-01 (inclusive) to 2100-03-01 (exclusive). *)
Definition jd_window (y m : Z) : Prop := (1900 < y \/ (y = 1900 /\ 3 <= m)) /\ (y < 2100 \/ (y = 2100 /\ m < 3)).

Lemma jd_int_exact y m d : 1 <= y -> 1 <= m <= 12 ->
  (jd_int y m d - jd_int 2000 1 1 = day_number y m d - day_number 2000 1 1 <-> jd_window y m).
Proof.
  intros Hy Hm. unfold jd_int, jd_window.
  assert (Q1 : Z.quot (m + 9) 12 = (m + 9) / 12) by (apply Z.quot_div_nonneg; lia).
  assert (Q1' : 0 <= (m + 9) / 12) by (apply Z.div_pos; lia).
  rewrite Q1, (Z.quot_div_nonneg (7 * (y + (m + 9) / 12)) 4), (Z.quot_div_nonneg (275 * m) 9) by lia.
  change (Z.quot (7 * (2000 + Z.quot (1 + 9) 12)) 4) with 3500.
  change (Z.quot (275 * 1) 9) with 30.
  assert (C : (y - 1) / 4 = y / 4 - (if y mod 4 =? 0 then 1 else 0)) by (rewrite (div_step y 4) by lia; lia).
  change (day_number 2000 1 1) with 730119.
  unfold day_number, days_before_year.
  destruct (month_cases m Hm) as [E|[E|[E|[E|[E|[E|[E|[E|[E|[E|[E|E]]]]]]]]]]]; subst m;
  match goal with |- context [(?a + 9) / 12] => let v := eval vm_compute in ((a + 9) / 12) in change ((a+9)/12) with v end;
  match goal with |- context [(275 * ?a) / 9] => let v := eval vm_compute in ((275 * a) / 9) in change ((275*a)/9) with v end;
  unfold days_before_month, leap; cbn [Z.ltb Z.compare Pos.compare Pos.compare_cont andb];
  destruct (Z.eqb_spec (y mod 4) 0), (Z.eqb_spec (y mod 100) 0), (Z.eqb_spec (y mod 400) 0); cbn [andb orb negb];
  Z.to_euclidean_division_equations; lia.
Qed.
