(** * Property C127: when a mission begins and ends, by the clock and the state machine together *)
From Coq Require Import Reals ZArith List Bool Lra Lia.
From Flocq Require Import Core.
From Verif Require Import Num Vec M_vector M_quaternion M_jday M_struct M_dyn M_ctrl M_fsm S_cal S_fsm P_jday P_jdint P_jday2 Props_fsm.
Import ListNotations.
Local Open Scope R_scope.

(** the clock after n ticks of a K-th of a minute *)
Definition clk (K : nat) (c : Clock R) (n : nat) : Clock R := ticks (repeat (60 / INR K) n) c.
(** the manager asked for the n-th time reads the clock c n *)
Definition polled (c : nat -> Clock R) (man : nat -> Man) : Prop := forall n d, mn_after (man n) d = Ok (is_after (c n) d).
(** the machine after n calls of transition, the n-th (counted from 0) with the manager [man n] and any measurements *)
Fixpoint sm_at (man : nat -> Man) (x : nat -> Meas) (s : SM) (n : nat) : SM := match n with O => s | Datatypes.S n => fst (transition false (man n) (x n) (sm_at man x s n)) end.
Definition in_state (a : St) (mi : Mission) : SM := mkSM (VS a) (Some mi) false.

Lemma poll_safe c (man : nat -> Man) (x : nat -> Meas) mi (n : nat) : polled c man -> fst (transition false (man n) (x n) (in_state Safe mi)) = in_state (if is_after (c n) (ms_start mi) then Point else Safe) mi.
Proof. intros P. assert (E := C59_rules (man n) (x n) (Some mi) Safe). cbv zeta in E. unfold in_state. rewrite (E (is_after (c n) (ms_start mi))); [reflexivity|]. exists mi. split; [reflexivity|apply P]. Qed.
Lemma poll_point c (man : nat -> Man) (x : nat -> Meas) mi (n : nat) : polled c man -> fst (transition false (man n) (x n) (in_state Point mi)) = in_state (if is_after (c n) (ms_end mi) then Unsafe else Point) mi.
Proof. intros P. assert (E := C59_rules (man n) (x n) (Some mi) Point). cbv zeta in E. unfold in_state. rewrite (E (is_after (c n) (ms_end mi))); [reflexivity|]. exists mi. split; [reflexivity|apply P]. Qed.
Lemma poll_unsafe (man : nat -> Man) (x : nat -> Meas) mi (n : nat) : fst (transition false (man n) (x n) (in_state Unsafe mi)) = in_state Unsafe mi.
Proof. assert (E := C59_rules (man n) (x n) (Some mi) Unsafe). cbv zeta in E. unfold in_state. rewrite E. reflexivity. Qed.

(** a clock and a date that name the same instant have the same fields *)
Lemma same_fields (c : Clock R) t : clock_ok c -> 0 <= second c < 60 -> date_ok t -> chron c = date_chron t ->
  year c = d_year t /\ month c = d_month t /\ day c = d_day t /\ hour c = d_hour t /\ minute c = d_minute t /\ second c = d_second t.
Proof.
  intros [V _] S [V' S'] E. unfold chron, date_chron in E.
  assert (M : clock_minute c = date_minute t).
  { assert (A : (clock_minute c < date_minute t + 1)%Z) by (apply lt_IZR; rewrite plus_IZR; lra). assert (B : (date_minute t < clock_minute c + 1)%Z) by (apply lt_IZR; rewrite plus_IZR; lra). lia. }
  rewrite M in E. destruct (minute_number_inj _ _ _ _ _ _ _ _ _ _ V V' M) as (-> & -> & -> & -> & ->). repeat split; try reflexivity. lra.
Qed.
Lemma same_after (c : Clock R) t : clock_ok c -> 0 <= second c < 60 -> date_ok t -> chron c = date_chron t -> is_after c t = true.
Proof. intros C S T E. destruct (same_fields c t C S T E) as (E1 & E2 & E3 & E4 & E5 & E6). apply is_after_iff. unfold date_le_fields. rewrite E1, E2, E3, E4, E5, E6. repeat split; try lia. lra. Qed.
Lemma clk_facts K c : (1 <= K)%nat -> INR K < 6000000 -> clock_ok c -> second c = 0 -> 0 < 60 / INR K <= 60 /\
  forall n, clock_ok (clk K c n) /\ chron (clk K c n) = chron c + INR n * (60 / INR K) /\ 0 <= second (clk K c n) <= 60 - 60 / INR K.
Proof.
  intros K1 K2 C S. assert (KP : 1 <= INR K) by (change 1 with (INR 1); apply le_INR, K1). assert (D : 0 < 60 / INR K) by (apply Rdiv_lt_0_compat; lra).
  assert (D1 : INR K * (60 / INR K) = 60) by (field; lra). split; [split; [exact D|apply (Rmult_le_reg_l (INR K)); [lra|]; rewrite D1; nra]|].
  intros n. destruct (P_jday2.divisor_step K c K1 K2 C S n) as (A & B & r & R1 & R2). fold (clk K c n) in A, B, R2. split; [exact A|]. split; [exact B|]. rewrite R2.
  assert (R0 := pos_INR r). split; [apply Rmult_le_pos; lra|]. assert (L : INR r + 1 <= INR K) by (rewrite <- S_INR; apply le_INR; lia). replace (60 - 60 / INR K) with ((INR K - 1) * (60 / INR K)) by (field; lra). apply Rmult_le_compat_r; lra.
Qed.

(** whatever the clock, a mission never begins before its start nor ends before its end *)
Theorem C127_never_early : forall c man x mi, (forall n, clock_ok (c n)) -> polled c man -> date_ok (ms_start mi) -> date_ok (ms_end mi) -> forall n, let s := sm_at man x (in_state Safe mi) n in
  s = in_state Safe mi \/ (s = in_state Point mi /\ exists j, (j < n)%nat /\ date_chron (ms_start mi) <= chron (c j)) \/
  (s = in_state Unsafe mi /\ exists j i, (j < i < n)%nat /\ date_chron (ms_start mi) <= chron (c j) /\ date_chron (ms_end mi) <= chron (c i)).
Proof.
  intros c man x mi C P D1 D2 n. cbv zeta. induction n as [|n IH]; [left; reflexivity|]. cbn [sm_at]. destruct IH as [->|[[-> (j & J1 & J2)]|[-> (j & i & J1 & J2)]]].
  - rewrite (poll_safe c) by exact P. destruct (is_after (c n) (ms_start mi)) eqn:E; [|left; reflexivity]. right. left. split; [reflexivity|]. exists n. split; [lia|]. apply is_after_sound; auto.
  - rewrite (poll_point c) by exact P. right. destruct (is_after (c n) (ms_end mi)) eqn:E; [right|left]; (split; [reflexivity|]).
    + exists j, n. split; [lia|]. split; [exact J2|]. apply is_after_sound; auto.
    + exists j. split; [lia|exact J2].
  - rewrite poll_unsafe. right. right. split; [reflexivity|]. exists j, i. split; [lia|exact J2].
Qed.
Print Assumptions C127_never_early.
(** if the start and the end are instants the clock will show, the machine waiting in SAFE points from the one to the other exactly *)
Theorem C127_punctual : forall K c man x mi a b, (1 <= K)%nat -> INR K < 6000000 -> clock_ok c -> second c = 0 -> polled (clk K c) man -> date_ok (ms_start mi) -> date_ok (ms_end mi) ->
  date_chron (ms_start mi) = chron c + INR a * (60 / INR K) -> date_chron (ms_end mi) = chron c + INR b * (60 / INR K) -> (a < b)%nat ->
  forall n, sm_at man x (in_state Safe mi) n = in_state (if Nat.leb n a then Safe else if Nat.leb n b then Point else Unsafe) mi.
Proof.
  intros K c man x mi a b K1 K2 C S P D1 D2 EA EB AB. destruct (clk_facts K c K1 K2 C S) as (DT & F).
  assert (ON : forall d q n, date_ok d -> date_chron d = chron c + INR q * (60 / INR K) -> (n <= q)%nat -> is_after (clk K c n) d = Nat.eqb n q).
  { intros d q n D E L. destruct (F n) as (C1 & C2 & C3). destruct (Nat.eqb_spec n q) as [->|N].
    - apply same_after; [exact C1|lra|exact D|rewrite C2, E; reflexivity].
    - destruct (is_after (clk K c n) d) eqn:A; [|reflexivity]. exfalso. assert (Q := is_after_sound _ _ C1 D A). rewrite C2, E in Q. assert (LT : INR n < INR q) by (apply lt_INR; lia). assert (X := Rmult_lt_compat_r _ _ _ (proj1 DT) LT). lra. }
  intros n. induction n as [|n IH]; [reflexivity|]. cbn [sm_at]. rewrite IH. destruct (Nat.leb_spec n a) as [LA|LA].
  - rewrite (poll_safe (clk K c)) by exact P. rewrite (ON _ a n D1 EA LA). destruct (Nat.eqb_spec n a) as [->|N].
    + destruct (Nat.leb_spec (Datatypes.S a) a); [lia|]. destruct (Nat.leb_spec (Datatypes.S a) b); [reflexivity|lia].
    + destruct (Nat.leb_spec (Datatypes.S n) a); [reflexivity|lia].
  - destruct (Nat.leb_spec (Datatypes.S n) a); [lia|]. destruct (Nat.leb_spec n b) as [LB|LB].
    + rewrite (poll_point (clk K c)) by exact P. rewrite (ON _ b n D2 EB LB). destruct (Nat.eqb_spec n b) as [N|N]; destruct (Nat.leb_spec (Datatypes.S n) b) as [Q|Q]; try lia; reflexivity.
    + destruct (Nat.leb_spec (Datatypes.S n) b); [lia|]. apply poll_unsafe.
Qed.
Print Assumptions C127_punctual.
(** otherwise not: a start or an end in the last moments of a minute, later than the clock's last tick in it, is never reached, and the mission never begins, or never ends *)
Theorem C127_never_refuted : forall K c man x mi, (1 <= K)%nat -> INR K < 6000000 -> clock_ok c -> second c = 0 -> polled (clk K c) man ->
  (60 - 60 / INR K < d_second (ms_start mi) -> forall n, sm_at man x (in_state Safe mi) n = in_state Safe mi) /\
  (60 - 60 / INR K < d_second (ms_end mi) -> forall n, sm_at man x (in_state Point mi) n = in_state Point mi).
Proof.
  intros K c man x mi K1 K2 C S P. destruct (clk_facts K c K1 K2 C S) as (DT & F).
  assert (NO : forall d n, 60 - 60 / INR K < d_second d -> is_after (clk K c n) d = false).
  { intros d n L. destruct (is_after (clk K c n) d) eqn:A; [|reflexivity]. exfalso. apply is_after_iff in A. unfold date_le_fields in A. destruct A as (_ & _ & _ & _ & _ & A). destruct (F n) as (_ & _ & B). lra. }
  split; intros L n; (induction n as [|n IH]; [reflexivity|]); cbn [sm_at]; rewrite IH.
  - rewrite (poll_safe (clk K c)), (NO _ _ L) by exact P. reflexivity.
  - rewrite (poll_point (clk K c)), (NO _ _ L) by exact P. reflexivity.
Qed.
Print Assumptions C127_never_refuted.
Lemma first_true (f : nat -> bool) m : f m = true -> exists n, (n <= m)%nat /\ f n = true /\ forall j, (j < n)%nat -> f j = false.
Proof.
  revert f. induction m as [|m IH]; intros f H; [exists 0%nat; split; [lia|]; split; [exact H|lia]|]. destruct (f 0%nat) eqn:E; [exists 0%nat; split; [lia|]; split; [exact E|lia]|].
  destruct (IH (fun k => f (Datatypes.S k)) H) as (n & N1 & N2 & N3). exists (Datatypes.S n). split; [lia|]. split; [exact N2|]. intros j Hj. destruct j; [exact E|apply N3; lia].
Qed.
(** every other mission does begin, before the end of the year it is set for or, when the machine comes to SAFE later than that, before the end of the year in which it does *)
Theorem C127_late : forall K c man x mi, (1 <= K)%nat -> INR K < 6000000 -> clock_ok c -> second c = 0 -> polled (clk K c) man -> date_ok (ms_start mi) -> d_second (ms_start mi) <= 60 - 60 / INR K ->
  exists n, (forall j, (j <= n)%nat -> sm_at man x (in_state Safe mi) j = in_state Safe mi) /\ sm_at man x (in_state Safe mi) (Datatypes.S n) = in_state Point mi /\
    chron (clk K c n) < 60 * IZR (minute_number (Z.max (year c) (d_year (ms_start mi)) + 1) 1 1 0 0).
Proof.
  intros K c man x mi K1 K2 C S P D L. destruct (clk_facts K c K1 K2 C S) as (DT & F). set (Y := Z.max (year c) (d_year (ms_start mi))).
  set (t := mkDate Y 12 31 23 59 (60 - 60 / INR K)). assert (VT : valid_minute Y 12 31 23 59) by (repeat split; cbn; lia). assert (TO : date_ok t) by (split; [exact VT|cbn [t d_second]; lra]).
  assert (KP : 1 <= INR K) by (change 1 with (INR 1); apply le_INR, K1). assert (D1 : INR K * (60 / INR K) = 60) by (field; lra).
  assert (ML : (clock_minute c <= date_minute t)%Z).
  { unfold date_minute, clock_minute, minute_number. cbn [t d_year d_month d_day d_hour d_minute]. destruct C as [[VD [HH HM]] _]. assert (Q := day_number_le _ _ _ _ _ _ VD (proj1 VT) ltac:(unfold Y; lia) ltac:(destruct VD; lia) ltac:(destruct VD as [_ [_ Q]]; assert (R := month_len_bounds (year c) (month c)); lia)). lia. }
  set (m := (Z.to_nat (date_minute t - clock_minute c) * K + (K - 1))%nat).
  assert (IM : INR m * (60 / INR K) = 60 * (IZR (date_minute t) - IZR (clock_minute c)) + (60 - 60 / INR K)).
  { unfold m. rewrite plus_INR, mult_INR, minus_INR by exact K1. rewrite INR_IZR_INZ, Z2Nat.id, minus_IZR by lia. change (INR 1) with 1. field. lra. }
  destruct (F m) as (M1 & M2 & M3). assert (EQ : chron (clk K c m) = date_chron t) by (rewrite M2, IM; unfold chron, date_chron; rewrite S; cbn [t d_second]; ring).
  destruct (same_fields _ _ M1 ltac:(lra) TO EQ) as (E1 & E2 & E3 & E4 & E5 & E6). cbn [t d_year d_month d_day d_hour d_minute d_second] in E1, E2, E3, E4, E5, E6.
  assert (AT : is_after (clk K c m) (ms_start mi) = true).
  { apply is_after_iff. unfold date_le_fields. rewrite E1, E2, E3, E4, E5, E6. destruct D as [[[VM VD] [VH VI]] VS]. assert (R := month_len_bounds (d_year (ms_start mi)) (d_month (ms_start mi))). unfold Y. repeat split; try lia. lra. }
  destruct (first_true (fun n => is_after (clk K c n) (ms_start mi)) m AT) as (n & N1 & N2 & N3). exists n.
  assert (SF : forall j, (j <= n)%nat -> sm_at man x (in_state Safe mi) j = in_state Safe mi).
  { intros j. induction j as [|j IH]; intros Hj; [reflexivity|]. cbn [sm_at]. rewrite IH by lia. rewrite (poll_safe (clk K c)) by exact P. rewrite N3 by lia. reflexivity. }
  split; [exact SF|]. split; [cbn [sm_at]; rewrite SF by lia; rewrite (poll_safe (clk K c)) by exact P; rewrite N2; reflexivity|].
  apply (Rle_lt_trans _ (chron (clk K c m))); [rewrite (proj1 (proj2 (F n))), M2; assert (LE : INR n <= INR m) by (apply le_INR, N1); assert (X := Rmult_le_compat_r _ _ _ (Rlt_le _ _ (proj1 DT)) LE); lra|].
  rewrite EQ. unfold date_chron. cbn [t d_second]. assert (X : (date_minute t + 1 = minute_number (Y + 1) 1 1 0 0)%Z).
  { unfold date_minute, minute_number, day_number. cbn [t d_year d_month d_day d_hour d_minute]. rewrite dby_succ, dbm_1. assert (Q := dbm_12 Y). destruct (leap Y); lia. }
  rewrite <- X, plus_IZR. lra.
Qed.
Print Assumptions C127_late.
(** a start missed by one second costs a year: the machine that comes to SAFE at New Year, one second after the start of its mission, begins it at the last second of that year *)
Theorem C127_year_refuted : forall y c man x mi, clock_ok c -> fields c = (y + 1, 1, 1, 0, 0)%Z -> second c = 0 -> polled (clk 60 c) man -> ms_start mi = mkDate y 12 31 23 59 59 ->
  date_chron (ms_start mi) = chron c - 1 /\
  exists N, INR N = 86400 * (if leap (y + 1) then 366 else 365) - 1 /\ (forall n, (n <= N)%nat -> sm_at man x (in_state Safe mi) n = in_state Safe mi) /\ sm_at man x (in_state Safe mi) (Datatypes.S N) = in_state Point mi.
Proof.
  intros y c man x mi C FC S P ES. assert (I60 : INR 60 = 60) by (rewrite INR_IZR_INZ; reflexivity). destruct (clk_facts 60 c ltac:(lia) ltac:(rewrite I60; lra) C S) as (_ & F).
  assert (F' : forall n, clock_ok (clk 60 c n) /\ chron (clk 60 c n) = chron c + INR n /\ 0 <= second (clk 60 c n) <= 59) by (intros n; destruct (F n) as (A & B & D); rewrite I60 in B, D; replace (60 / 60) with 1 in B, D by field; split; [exact A|]; split; lra). clear F.
  unfold fields in FC. injection FC as Y1 Y2 Y3 Y4 Y5. assert (CM : clock_minute c = minute_number (y + 1) 1 1 0 0) by (unfold clock_minute; rewrite Y1, Y2, Y3, Y4, Y5; reflexivity).
  assert (DS : (date_minute (ms_start mi) + 1 = clock_minute c)%Z).
  { rewrite CM, ES. unfold date_minute, minute_number, day_number. cbn [d_year d_month d_day d_hour d_minute]. rewrite dby_succ, dbm_1. assert (Q := dbm_12 y). destruct (leap y); lia. }
  split; [unfold date_chron, chron; rewrite S, <- DS, plus_IZR, ES; cbn [d_second]; ring|].
  set (t := mkDate (y + 1) 12 31 23 59 59). assert (VT : valid_minute (y + 1) 12 31 23 59) by (repeat split; cbn; lia). assert (TO : date_ok t) by (split; [exact VT|cbn [t d_second]; lra]).
  assert (DT : (date_minute t - clock_minute c = 1440 * (if leap (y + 1) then 366 else 365) - 1)%Z).
  { rewrite CM. unfold date_minute, minute_number, day_number. cbn [t d_year d_month d_day d_hour d_minute]. rewrite dbm_1. assert (Q := dbm_12 (y + 1)). destruct (leap (y + 1)); lia. }
  set (N := Z.to_nat (60 * (date_minute t - clock_minute c) + 59)). assert (IN : INR N = 60 * (IZR (date_minute t) - IZR (clock_minute c)) + 59).
  { unfold N. rewrite INR_IZR_INZ, Z2Nat.id by (destruct (leap (y + 1)); lia). rewrite plus_IZR, mult_IZR, minus_IZR. reflexivity. }
  assert (IN2 : INR N = 86400 * (if leap (y + 1) then 366 else 365) - 1) by (rewrite IN, <- minus_IZR, DT, minus_IZR, mult_IZR; destruct (leap (y + 1)); lra).
  assert (CT : date_chron t = chron c + INR N) by (rewrite IN; unfold date_chron, chron; rewrite S; cbn [t d_second]; ring).
  assert (BE : forall n, (n < N)%nat -> is_after (clk 60 c n) (ms_start mi) = false).
  { intros n Hn. destruct (is_after (clk 60 c n) (ms_start mi)) eqn:A; [|reflexivity]. exfalso. destruct (F' n) as (C1 & C2 & C3). apply is_after_iff in A. unfold date_le_fields in A. rewrite ES in A. cbn [d_year d_month d_day d_hour d_minute d_second] in A. destruct A as (A1 & A2 & A3 & A4 & A5 & A6).
    assert (YG : (y + 1 <= year (clk 60 c n))%Z).
    { destruct (Z.le_gt_cases (y + 1) (year (clk 60 c n))) as [Q|Q]; [exact Q|]. exfalso. assert (EY : year (clk 60 c n) = y) by lia. destruct C1 as [[[V1 V2] [V3 V4]] _]. assert (R := month_len_bounds (year (clk 60 c n)) (month (clk 60 c n))).
      assert (EM : clock_minute (clk 60 c n) = date_minute (ms_start mi)) by (unfold clock_minute, date_minute; rewrite ES; cbn [d_year d_month d_day d_hour d_minute]; f_equal; lia). unfold chron in C2. rewrite EM, S in C2. assert (Q2 : IZR (clock_minute c) = IZR (date_minute (ms_start mi)) + 1) by (rewrite <- DS, plus_IZR; reflexivity). assert (Q3 := pos_INR n). lra. }
    assert (AT : is_after (clk 60 c n) t = true) by (apply is_after_iff; unfold date_le_fields; cbn [t d_year d_month d_day d_hour d_minute d_second]; repeat split; assumption || lia). assert (Q := is_after_sound _ _ C1 TO AT). rewrite CT, C2 in Q. assert (LT := lt_INR _ _ Hn). lra. }
  assert (ATN : is_after (clk 60 c N) (ms_start mi) = true).
  { destruct (F' N) as (C1 & C2 & C3). destruct (same_fields _ t C1 ltac:(lra) TO ltac:(rewrite C2, CT; reflexivity)) as (E1 & E2 & E3 & E4 & E5 & E6). apply is_after_iff. unfold date_le_fields. rewrite E1, E2, E3, E4, E5, E6, ES. cbn [t d_year d_month d_day d_hour d_minute d_second]. repeat split; try lia. lra. }
  exists N. split; [exact IN2|]. assert (SF : forall j, (j <= N)%nat -> sm_at man x (in_state Safe mi) j = in_state Safe mi).
  { intros j. induction j as [|j IH]; intros Hj; [reflexivity|]. cbn [sm_at]. rewrite IH by lia. rewrite (poll_safe (clk 60 c)) by exact P. rewrite BE by lia. reflexivity. }
  split; [exact SF|]. cbn [sm_at]. rewrite SF by lia. rewrite (poll_safe (clk 60 c)) by exact P. rewrite ATN. reflexivity.
Qed.
Print Assumptions C127_year_refuted.

(** clocks and missions that meet the hypotheses: one tick a second from 2024-06-01 12:00 and a mission from 12:00:10 to 12:01:05; ticks of two seconds and an end at 59 s; New Year 2025 *)
Definition asked_of (c : nat -> Clock R) (sat : Satellite) (w : RWS) (n : nat) : Man := mkMan (fun d => Ok (is_after (c n) d)) sat w.
Example C127_ex : forall sat w, let c := Clock_init 2024 6 1 12 0 0 : Clock R in let mi := mkMission (mkDate 2024 6 1 12 0 10) (mkDate 2024 6 1 12 1 5) in
  clock_ok c /\ second c = 0 /\ polled (clk 60 c) (asked_of (clk 60 c) sat w) /\ date_ok (ms_start mi) /\ date_ok (ms_end mi) /\
  date_chron (ms_start mi) = chron c + INR 10 * (60 / INR 60) /\ date_chron (ms_end mi) = chron c + INR 65 * (60 / INR 60) /\ d_second (ms_start mi) <= 60 - 60 / INR 60 /\
  60 - 60 / INR 30 < d_second (mkDate 2024 6 1 12 1 59) /\ fields (Clock_init 2025 1 1 0 0 0 : Clock R) = (2024 + 1, 1, 1, 0, 0)%Z.
Proof.
  intros sat w c mi. assert (I60 : INR 60 = 60) by (rewrite INR_IZR_INZ; reflexivity). assert (I30 : INR 30 = 30) by (rewrite INR_IZR_INZ; reflexivity). assert (I10 : INR 10 = 10) by (rewrite INR_IZR_INZ; reflexivity). assert (I65 : INR 65 = 65) by (rewrite INR_IZR_INZ; reflexivity).
  split; [apply clock_init_ok; repeat split; cbn; lia|]. split; [reflexivity|]. split; [intros n d; reflexivity|]. split; [split; [repeat split; cbn; lia|cbn -[Rle Rlt]; lra]|]. split; [split; [repeat split; cbn; lia|cbn -[Rle Rlt]; lra]|].
  rewrite I60, I10, I65, I30. assert (M0 : date_minute (ms_start mi) = clock_minute c) by reflexivity. assert (M1 : date_minute (ms_end mi) = (clock_minute c + 1)%Z) by reflexivity.
  split; [unfold date_chron, chron; rewrite M0; cbn [mi ms_start d_second c Clock_init second]; rnumg; lra|]. split; [unfold date_chron, chron; rewrite M1, plus_IZR; cbn [mi ms_end d_second c Clock_init second]; rnumg; lra|].
  split; [cbn [mi ms_start d_second]; lra|]. split; [cbn [d_second]; lra|reflexivity].
Qed.

(** ** the other clock *)
(** the manager's clock is a JClock, [c n] at the n-th poll, and start and end of the mission are the datetimes s and e *)
Definition polled_j (c : nat -> JClock) (man : nat -> Man) (mi : Mission) (s e : Z) : Prop :=
  forall n, mn_after (man n) (ms_start mi) = Ok (j_is_after (c n) s) /\ mn_after (man n) (ms_end mi) = Ok (j_is_after (c n) e).
(** up to the N-th poll the clock ticks by dt seconds at a time, none raising *)
Definition ticking_j (dt : R) (c : nat -> JClock) (N : nat) : Prop := forall n, (n < N)%nat -> jtick dt (c n) = Ok (c (Datatypes.S n)).
Lemma ticking_us dt c N : ticking_j dt c N -> forall n, (n <= N)%nat -> j_us (c n) = (j_us (c O) + Z.of_nat n * ZnearestE (dt * 1000000))%Z.
Proof.
  intros T n. induction n as [|n IH]; intros L; [lia|]. assert (E := T n ltac:(lia)). unfold jtick in E. cbv zeta in E. rewrite IH in E by lia.
  destruct (datetime_ok _); [|discriminate]. injection E as <-. cbn [j_us]. lia.
Qed.
Lemma poll_safe_j c (man : nat -> Man) (x : nat -> Meas) mi s e (n : nat) : polled_j c man mi s e -> fst (transition false (man n) (x n) (in_state Safe mi)) = in_state (if j_is_after (c n) s then Point else Safe) mi.
Proof. intros P. assert (E := C59_rules (man n) (x n) (Some mi) Safe). cbv zeta in E. unfold in_state. rewrite (E (j_is_after (c n) s)); [reflexivity|]. exists mi. split; [reflexivity|apply P]. Qed.
Lemma poll_point_j c (man : nat -> Man) (x : nat -> Meas) mi s e (n : nat) : polled_j c man mi s e -> fst (transition false (man n) (x n) (in_state Point mi)) = in_state (if j_is_after (c n) e then Unsafe else Point) mi.
Proof. intros P. assert (E := C59_rules (man n) (x n) (Some mi) Point). cbv zeta in E. unfold in_state. rewrite (E (j_is_after (c n) e)); [reflexivity|]. exists mi. split; [reflexivity|apply P]. Qed.
(** with a JClock every mission begins at the first poll after its start and ends at the first later poll after its end: the state after the poll n *)
Theorem C127_jclock : forall dt c man x mi s e N, 0 <= dt -> polled_j c man mi s e -> ticking_j dt c N -> forall n, (n <= N)%nat ->
  sm_at man x (in_state Safe mi) (Datatypes.S n) =
    in_state (if (j_us (c n) <=? s)%Z then Safe else if ((j_us (c n) <=? e)%Z || Nat.eqb n 0 || (j_us (c (Nat.pred n)) <=? s)%Z)%bool then Point else Unsafe) mi.
Proof.
  intros dt c man x mi s e N D P T. assert (U := ticking_us dt c N T). set (u := ZnearestE (dt * 1000000)) in *.
  assert (U0 : (0 <= u)%Z) by (unfold u; rewrite <- (Zrnd_IZR ZnearestE 0); apply Zrnd_le; [apply valid_rnd_N|]; lra).
  induction n as [|n IH]; intros L.
  - cbn [sm_at]. rewrite (poll_safe_j c man x mi s e 0 P). unfold j_is_after. cbn [Nat.eqb]. rewrite orb_true_r. cbn [orb]. rewrite Z.ltb_antisym. destruct (j_us (c 0%nat) <=? s)%Z; reflexivity.
  - change (sm_at man x (in_state Safe mi) (Datatypes.S (Datatypes.S n))) with (fst (transition false (man (Datatypes.S n)) (x (Datatypes.S n)) (sm_at man x (in_state Safe mi) (Datatypes.S n)))). rewrite IH by lia. cbn [Nat.pred Nat.eqb]. rewrite orb_false_r.
    assert (M : (j_us (c n) <= j_us (c (Datatypes.S n)))%Z) by (rewrite (U n), (U (Datatypes.S n)) by lia; nia).
    destruct (Z.leb_spec (j_us (c n)) s) as [A|A].
    + rewrite (poll_safe_j c man x mi s e _ P). unfold j_is_after. rewrite Z.ltb_antisym, orb_true_r. destruct (j_us (c (Datatypes.S n)) <=? s)%Z; reflexivity.
    + destruct (Z.leb_spec (j_us (c (Datatypes.S n))) s) as [B|B]; [lia|]. rewrite orb_false_r. destruct ((j_us (c n) <=? e)%Z || Nat.eqb n 0 || (j_us (c (Nat.pred n)) <=? s)%Z)%bool eqn:Q.
      * rewrite (poll_point_j c man x mi s e _ P). unfold j_is_after. rewrite Z.ltb_antisym. destruct (j_us (c (Datatypes.S n)) <=? e)%Z; reflexivity.
      * rewrite poll_unsafe. destruct (Z.leb_spec (j_us (c (Datatypes.S n))) e) as [F|F]; [|reflexivity]. apply orb_false_iff in Q. destruct Q as [Q _]. apply orb_false_iff in Q. destruct Q as [Q _]. apply Z.leb_gt in Q. lia.
Qed.
Print Assumptions C127_jclock.
(** so, once the clock is past the start, the mission has begun, at a poll no later than one tick after the start (or at the first poll) *)
Theorem C127_jclock_begins : forall dt c man x mi s e N, 0 <= dt -> polled_j c man mi s e -> ticking_j dt c N -> (s < j_us (c N))%Z ->
  exists a, (a <= N)%nat /\ (forall n, (n <= a)%nat -> sm_at man x (in_state Safe mi) n = in_state Safe mi) /\ sm_at man x (in_state Safe mi) (Datatypes.S a) = in_state Point mi /\
    (s < j_us (c a))%Z /\ (a = O \/ (j_us (c a) <= s + ZnearestE (dt * 1000000))%Z).
Proof.
  intros dt c man x mi s e N D P T H. assert (G := C127_jclock dt c man x mi s e N D P T). assert (U := ticking_us dt c N T).
  assert (F : forall k, (k <= N)%nat -> (forall n, (n <= k)%nat -> (j_us (c n) <= s)%Z) \/ exists a, (a <= k)%nat /\ (s < j_us (c a))%Z /\ forall n, (n < a)%nat -> (j_us (c n) <= s)%Z).
  { induction k as [|k IH]; intros L.
    - destruct (Z_le_gt_dec (j_us (c O)) s) as [A|A]; [left; intros n Hn; replace n with O by lia; exact A|right; exists O; repeat split; lia].
    - destruct (IH ltac:(lia)) as [A|(a & A1 & A2 & A3)]; [|right; exists a; repeat split; [lia|exact A2|exact A3]].
      destruct (Z_le_gt_dec (j_us (c (Datatypes.S k))) s) as [B|B].
      + left. intros n Hn. destruct (Nat.eq_dec n (Datatypes.S k)) as [->|Q]; [exact B|apply A; lia].
      + right. exists (Datatypes.S k). repeat split; [lia|lia|]. intros n Hn. apply A. lia. }
  destruct (F N (le_n N)) as [A|(a & A1 & A2 & A3)]; [assert (X := A N (le_n N)); lia|]. exists a. split; [exact A1|]. split; [|split; [|split; [exact A2|]]].
  - intros n Hn. destruct n as [|n]; [reflexivity|]. rewrite G by lia. assert (X := A3 n ltac:(lia)). apply Z.leb_le in X. rewrite X. reflexivity.
  - rewrite G by lia. assert (X : (j_us (c a) <=? s)%Z = false) by (apply Z.leb_gt; lia). rewrite X. destruct a as [|a]; [cbn [Nat.eqb]; rewrite orb_true_r; reflexivity|]. cbn [Nat.pred]. assert (Y := A3 a ltac:(lia)). apply Z.leb_le in Y. rewrite Y, orb_true_r. reflexivity.
  - destruct a as [|a]; [left; reflexivity|right]. assert (Y := A3 a ltac:(lia)). rewrite (U a) in Y by lia. rewrite (U (Datatypes.S a)) by lia. lia.
Qed.
Print Assumptions C127_jclock_begins.
(** the New Year's mission of C127_year_refuted begins at once: start at 23:59:59 on 31 December, the clock at New Year *)
Example C127_jclock_ex : forall sat w mi, exists s t, datetime_make 2024 12 31 23 59 59 = Ok s /\ datetime_make 2025 1 1 0 0 0 = Ok t /\
  let c := fun n => mkJ (t + Z.of_nat n * 1000000) 0 in let man := fun n => mkMan (fun _ => Ok (j_is_after (c n) s)) sat w in
  polled_j c man mi s s /\ ticking_j 1 c 100 /\ (s < j_us (c O))%Z.
Proof.
  intros sat w mi. eexists. eexists. split; [reflexivity|]. split; [reflexivity|]. intros c man. split; [intros n; split; reflexivity|]. split; [|vm_compute; reflexivity].
  intros n Hn. unfold jtick, c. replace (ZnearestE (1 * 1000000)) with 1000000%Z by (rewrite Rmult_1_l; symmetry; apply (Zrnd_IZR ZnearestE)). cbv zeta. cbn [j_us j_absolute].
  set (t0 := ((minute_number 2025 1 1 0 0 * 60 + 0) * 1000000)%Z). assert (E : datetime_ok (t0 + Z.of_nat n * 1000000 + 1000000) = true).
  { unfold datetime_ok. apply andb_true_intro. replace datetime_end with 315537897600000000%Z by (vm_compute; reflexivity). replace t0 with 63871286400000000%Z by (vm_compute; reflexivity). split; [apply Z.leb_le; lia|apply Z.ltb_lt; lia]. }
  rewrite E. f_equal. f_equal. lia.
Qed.
