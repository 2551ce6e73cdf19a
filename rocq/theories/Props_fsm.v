(** * Properties C57-C63: the state machine *)
From Coq Require Import Reals ZArith List Bool Lia Lra.
From Verif Require Import Num Vec M_vector M_quaternion M_jday M_struct M_dyn M_ctrl M_fsm S_rot S_fsm P_struct P_fsm P_dyn2.
Import ListNotations.

(** ** C57: change_state *)
(** with the lock free, a command is obeyed and reported True exactly when listed; otherwise FAILED and False *)
Theorem C57_step : forall mi a b, change_state (mkSM (VS a) mi false) (VS b) = if listed a b then (mkSM (VS b) mi false, Done true) else (mkSM (VS Failed) mi false, Done false).
Proof. intros mi a b. rewrite (change_listed _ a b) by reflexivity. unfold after_command. destruct (listed a b); reflexivity. Qed.
Print Assumptions C57_step.
(** any history of commands from a new machine *)
Fixpoint command_all (m : SM) (l : list St) : SM := match l with [] => m | s :: r => command_all (fst (change_state m (VS s))) r end.
Theorem C57_history : forall l, command_all sm_new l = mkSM (VS (after_commands Sleep l)) None false.
Proof.
  unfold sm_new. generalize Sleep. intros a l. revert a. induction l as [|b l IH]; intros a; [reflexivity|]. cbn [command_all]. rewrite C57_step. cbn [after_commands]. unfold after_command.
  destruct (listed a b); apply IH.
Qed.
Print Assumptions C57_history.
(** FAILED is left only to UNSAFE, SPINDOWN only to SLEEP or FAILED; SPINDOWN is entered only from SAFE; DETUMBLE only from UNSAFE *)
Theorem C57_exits : forall l s, let a := after_commands Sleep l in let b := after_commands Sleep (l ++ [s]) in
  (a = Failed -> b = Failed \/ b = Unsafe) /\ (a = Spindown -> b = Spindown \/ b = Sleep \/ b = Failed) /\
  (b = Spindown -> a = Spindown \/ a = Safe) /\ (b = Detumble -> a = Detumble \/ a = Unsafe) /\ (a = Sleep -> b = Sleep \/ b = Unsafe \/ b = Failed).
Proof.
  intros l s a b. unfold b. rewrite after_app. fold a. unfold after_command. destruct a, s; cbn; repeat split; intros H; try discriminate; auto.
Qed.
Print Assumptions C57_exits.
(** the machine never sleeps again without having spun down first: every history that leaves SLEEP and returns passes SPINDOWN and, before
    it, SAFE *)
Theorem C57_sleep : forall a l, a <> Sleep -> after_commands a l = Sleep -> exists l1 l2, l = l1 ++ l2 /\ after_commands a l1 = Spindown.
Proof.
  intros a l N. induction l as [|s l IH] using rev_ind; intros H; [cbn in H; contradiction|]. rewrite after_app in H.
  destruct (after_commands a l) eqn:E; try (unfold after_command in H; destruct s; cbn in H; discriminate).
  - destruct (IH eq_refl) as (l1 & l2 & -> & K). exists l1, (l2 ++ [s]). rewrite app_assoc. auto.
  - exists l, [s]. auto.
Qed.
Print Assumptions C57_sleep.
Theorem C57_spindown : forall a l, a <> Spindown -> after_commands a l = Spindown -> exists l1 l2, l = l1 ++ l2 /\ after_commands a l1 = Safe.
Proof.
  intros a l N. induction l as [|s l IH] using rev_ind; intros H; [cbn in H; contradiction|]. rewrite after_app in H.
  destruct (after_commands a l) eqn:E; try (unfold after_command in H; destruct s; cbn in H; discriminate).
  - exists l, [s]. auto.
  - destruct (IH eq_refl) as (l1 & l2 & -> & K). exists l1, (l2 ++ [s]). rewrite app_assoc. auto.
Qed.
Print Assumptions C57_spindown.
(** no mode is a trap: every mode can be reached from every mode by accepted commands *)
Theorem C57_connected : forall a b, exists l, all_listed a l /\ after_commands a l = b.
Proof.
  assert (F : forall b, exists l, all_listed Failed l /\ after_commands Failed l = b).
  { intros [].
    - exists []. repeat split.
    - exists [Unsafe; Safe; Spindown; Sleep]. repeat split.
    - exists [Unsafe]. repeat split.
    - exists [Unsafe; Safe]. repeat split.
    - exists [Unsafe; Safe; Spindown]. repeat split.
    - exists [Unsafe; Detumble]. repeat split.
    - exists [Unsafe; Bbq]. repeat split.
    - exists [Unsafe; Point]. repeat split.
    - exists [Unsafe; Manual]. repeat split. }
  intros a b. destruct (F b) as (l & L & E). exists (Failed :: l). split; [split; [destruct a; reflexivity|exact L]|]. cbn. replace (after_command a Failed) with Failed by (destruct a; reflexivity). exact E.
Qed.
Print Assumptions C57_connected.
Example C57_ex : after_commands Sleep [Unsafe; Detumble; Bbq; Safe; Spindown; Sleep] = Sleep /\ after_commands Sleep [Unsafe; Bbq; Point] = Failed /\ Unsafe <> Sleep.
Proof. repeat split; discriminate. Qed.

(** ** C58: automatic transitions and the table *)
(** as written (helper calls lose an argument): whatever transition proposes is accepted, so it never drives the machine to FAILED *)
Theorem C58_accepted : forall man x m a m' o, sm_cur m = VS a -> sm_locked m = false -> a <> Failed -> transition false man x m = (m', o) -> sm_cur m' <> VS Failed /\ sm_locked m' = false.
Proof.
  intros man x [c mi lk] a m' o C L N H. cbn in C, L. subst c lk. unfold transition in H. cbn [sm_cur sm_mission] in H.
  destruct (propose false man x (VS a) mi) as [n|e] eqn:P; [|injection H as <- <-; cbn; split; [congruence|reflexivity]].
  destruct (val_eqb (VS a) (VS n)) eqn:V; [injection H as <- <-; cbn; split; [congruence|reflexivity]|].
  rewrite C57_step in H.
  assert (LI : listed a n = true /\ n <> Failed).
  { destruct a; cbn [propose] in P; try (injection P as <-; cbn in V; discriminate); try discriminate P.
    - unfold safe_transition in P. destruct mi as [mi|]; [|discriminate]. destruct (mn_after man (ms_start mi)) as [[|]|]; cbn in P; try discriminate; injection P as <-; split; try reflexivity; discriminate.
    - unfold spindown_transition in P. destruct (_ && _); injection P as <-; split; try reflexivity; discriminate.
    - unfold point_transition in P. destruct mi as [mi|]; [|discriminate]. destruct (mn_after man (ms_end mi)) as [[|]|]; cbn in P; try discriminate; injection P as <-; split; try reflexivity; discriminate. }
  destruct LI as [LI NF]. rewrite LI in H. injection H as <- <-. cbn. split; [congruence|reflexivity].
Qed.
Print Assumptions C58_accepted.
(** were the helper calls bound: still accepted, except from BBQ once the mission has started, which ends in FAILED *)
Theorem C58_bound : forall man x m a m' o, sm_cur m = VS a -> sm_locked m = false -> a <> Failed -> transition true man x m = (m', o) ->
  (sm_cur m' = VS Failed <-> a = Bbq /\ exists mi, sm_mission m = Some mi /\ mn_after man (ms_start mi) = Ok true).
Proof.
  intros man x [c mi lk] a m' o C L N H. cbn in C, L. subst c lk. cbn [sm_mission]. unfold transition in H. cbn [sm_cur sm_mission] in H.
  assert (ST : forall b e n, safe_transition man mi = Ok n -> (if b : bool then n = Point else n <> Point) -> e = b -> e = true <-> (exists mi', mi = Some mi' /\ mn_after man (ms_start mi') = Ok true)).
  { intros b e n E B ->. unfold safe_transition in E. destruct mi as [mi|]; [|discriminate]. destruct (mn_after man (ms_start mi)) as [[|]|] eqn:A; cbn in E; try discriminate; injection E as <-; destruct b; try discriminate; try (exfalso; apply B; reflexivity).
    - split; [eauto|reflexivity].
    - split; [discriminate|]. intros (mi' & E & Q). injection E as <-. congruence. }
  destruct (propose true man x (VS a) mi) as [n|e] eqn:P.
  - destruct (val_eqb (VS a) (VS n)) eqn:V.
    + injection H as <- <-. cbn. rewrite val_eqb_st in V. apply st_eqb_eq in V. subst n. split; [congruence|]. intros [-> (mi' & -> & Q)]. exfalso.
      cbn in P. unfold bbq_transition in P. cbn in P. rewrite Q in P. cbn in P. discriminate.
    + rewrite C57_step in H. destruct a; cbn [propose] in P; try (injection P as <-; cbn in V; discriminate); try contradiction.
      * unfold unsafe_transition, self_call in P. destruct (safe_transition man mi) as [i|]; [|discriminate]. cbn in P. destruct (st_eqb i Point); [|discriminate]. injection P as <-. injection H as <- <-. cbn. split; [discriminate|intros [E _]; discriminate].
      * unfold safe_transition in P. destruct mi as [mi|]; [|discriminate]. destruct (mn_after man (ms_start mi)) as [[|]|]; cbn in P; try discriminate; injection P as <-; injection H as <- <-; cbn; (split; [discriminate|intros [E _]; discriminate]).
      * unfold spindown_transition in P. destruct (_ && _); injection P as <-; injection H as <- <-; cbn; (split; [discriminate|intros [E _]; discriminate]).
      * unfold detumble_transition, self_call in P. destruct (safe_transition man mi) as [i|]; [|discriminate]. cbn in P. destruct (st_eqb i Point); [|destruct (Rleb _ _)]; injection P as <-; injection H as <- <-; cbn; (split; [discriminate|intros [E _]; discriminate]).
      * unfold bbq_transition, self_call in P. destruct (safe_transition man mi) as [i|] eqn:SI; [|discriminate]. cbn [rbind] in P. destruct (st_eqb i Point) eqn:EP.
        -- apply st_eqb_eq in EP. subst i. injection P as <-. injection H as <- <-. cbn. split; [intros _; split; [reflexivity|]|reflexivity]. apply (ST true true Point eq_refl eq_refl eq_refl). reflexivity.
        -- assert (NM : ~ exists mi', mi = Some mi' /\ mn_after man (ms_start mi') = Ok true).
           { intros E. assert (NP : i <> Point) by (intros ->; discriminate EP). apply (proj2 (ST false false i eq_refl NP eq_refl)) in E. discriminate. }
           destruct (axes_dot _ _); [|discriminate]. cbn [rbind] in P. destruct (_ && _ && _); injection P as <-; injection H as <- <-; cbn; (split; [discriminate|intros [_ E]; exfalso; apply NM, E]).
      * unfold point_transition in P. destruct mi as [mi|]; [|discriminate]. destruct (mn_after man (ms_end mi)) as [[|]|]; cbn in P; try discriminate; injection P as <-; injection H as <- <-; cbn; (split; [discriminate|intros [E _]; discriminate]).
  - injection H as <- <-. cbn. split; [congruence|]. intros [-> (mi' & -> & Q)]. exfalso. cbn in P. unfold bbq_transition in P. cbn in P. rewrite Q in P. cbn in P. discriminate.
Qed.
Print Assumptions C58_bound.
(** the table row itself: POINT is refused in BBQ although every other mode that flies missions accepts it *)
Theorem C58_bbq_point_refuted : forall mi, change_state (mkSM (VS Bbq) mi false) (VS Point) = (mkSM (VS Failed) mi false, Done false) /\
  (forall a, In a [Unsafe; Safe; Detumble; Point; Manual] -> change_state (mkSM (VS a) mi false) (VS Point) = (mkSM (VS Point) mi false, Done true)).
Proof. intros mi. split; [reflexivity|]. intros a I. cbn in I. destruct I as [<-|[<-|[<-|[<-|[<-|[]]]]]]; reflexivity. Qed.
Print Assumptions C58_bbq_point_refuted.

(** ** C59: the decision rules *)
Definition started (man : Man) (m : SM) (b : bool) : Prop := exists mi, sm_mission m = Some mi /\ mn_after man (ms_start mi) = Ok b.
Definition over (man : Man) (m : SM) (b : bool) : Prop := exists mi, sm_mission m = Some mi /\ mn_after man (ms_end mi) = Ok b.
Definition goes (m : SM) (b : St) : SM * out unit := (mkSM (VS b) (sm_mission m) false, Done tt).
(** the code as written *)
Theorem C59_rules : forall man x mi a, let m := mkSM (VS a) mi false in let r := transition false man x m in
  match a with
  | Sleep | Failed | Manual => r = (m, Done tt)
  | Safe => forall b, started man m b -> r = goes m (if b then Point else Safe)
  | Point => forall b, over man m b -> r = goes m (if b then Unsafe else Point)
  | Spindown => r = goes m (if Rlt_dec (norml (me_accl x)) 0.00001 then if Rlt_dec (norml (me_whl x)) 0.01 then Sleep else Spindown else Spindown)
  | Detumble | Bbq | Unsafe => r = (m, Exc TypeError)
  end.
Proof.
  intros man x mi a m r. unfold r, transition, m, goes, started, over. destruct a; cbn [sm_cur sm_mission propose]; try reflexivity.
  - intros b (mm & -> & E). cbn. rewrite E. destruct b; reflexivity.
  - unfold spindown_transition. destruct (Rltb_spec (norml (me_accl x)) 0.00001), (Rlt_dec (norml (me_accl x)) 0.00001); try lra; destruct (Rltb_spec (norml (me_whl x)) 0.01), (Rlt_dec (norml (me_whl x)) 0.01); try lra; reflexivity.
  - intros b (mm & -> & E). cbn. rewrite E. destruct b; reflexivity.
Qed.
Print Assumptions C59_rules.
(** no mission: SAFE and POINT raise; a clock that cannot be read (KalmanFilters has no PosFilter.model): likewise *)
Theorem C59_raises : forall bound man x mi a, In a [Safe; Point] -> let m := mkSM (VS a) mi false in
  (mi = None -> transition bound man x m = (m, Exc AttributeError)) /\
  (forall e, mi <> None -> (forall d, mn_after man d = Raise e) -> transition bound man x m = (m, Exc e)).
Proof.
  intros bound man x mi a I m. unfold transition, m. cbn [sm_cur sm_mission]. cbn in I.
  destruct I as [<-|[<-|[]]]; cbn [propose]; (split; [intros ->; reflexivity|]); intros e N E; destruct mi as [mi|]; try congruence; unfold safe_transition, point_transition; rewrite E; reflexivity.
Qed.
Print Assumptions C59_raises.
(** DETUMBLE, BBQ and UNSAFE are never left automatically: any number of transition calls, with any measurements and clock, raise and change
    nothing; so does every call in SLEEP, FAILED and MANUAL without raising *)
Fixpoint transitions (bound : bool) (m : SM) (l : list (Man * Meas)) : SM := match l with [] => m | (man, x) :: r => transitions bound (fst (transition bound man x m)) r end.
Theorem C59_stuck : forall l mi a, In a [Detumble; Bbq; Unsafe; Sleep; Failed; Manual] -> transitions false (mkSM (VS a) mi false) l = mkSM (VS a) mi false.
Proof.
  induction l as [|[man x] l IH]; intros mi a I; [reflexivity|]. cbn [transitions].
  assert (E := C59_rules man x mi a). cbv zeta in E. cbn in I. destruct I as [<-|[<-|[<-|[<-|[<-|[<-|[]]]]]]]; rewrite E; apply IH; cbn; tauto.
Qed.
Print Assumptions C59_stuck.
(** were the helper calls bound *)
Theorem C59_bound : forall man x mi a b, let m := mkSM (VS a) mi false in let r := transition true man x m in started man m b ->
  match a with
  | Detumble => r = goes m (if b then Point else if Rle_dec 0.05 (norm3 (me_rate x)) then Detumble else Bbq)
  | Bbq => b = false -> forall h, axes_dot (mn_wheels man) (me_whl x) = Ok h ->
      r = goes m (if Rlt_dec (mag_check (mn_sat man) (me_att x) (me_rate x)) 0.0001 then if Rlt_dec (norml (me_cur x)) 0.0001 then if Rlt_dec (norm3 h) 30 then Safe else Bbq else Bbq else Bbq)
  | Unsafe => r = if b then goes m Point else (m, Exc TypeError)
  | _ => True
  end.
Proof.
  intros man x mi a b m r (mm & E1 & E2). cbn in E1. subst mi. unfold r, transition, m, goes. destruct a; try exact I; cbn [sm_cur sm_mission propose].
  - unfold unsafe_transition. cbn. rewrite E2. destruct b; reflexivity.
  - unfold detumble_transition. cbn [self_call safe_transition]. rewrite E2. cbn [rbind]. destruct b; [reflexivity|]. cbn [st_eqb st_value Z.eqb].
    destruct (Rleb_spec 0.05 (norm3 (me_rate x))), (Rle_dec 0.05 (norm3 (me_rate x))); try lra; reflexivity.
  - intros -> h Eh. unfold bbq_transition. cbn [self_call safe_transition]. rewrite E2. cbn [rbind]. cbn [st_eqb st_value Z.eqb]. rewrite Eh. cbn [rbind].
    destruct (Rltb_spec (mag_check (mn_sat man) (me_att x) (me_rate x)) 0.0001), (Rlt_dec (mag_check (mn_sat man) (me_att x) (me_rate x)) 0.0001); try lra; try reflexivity.
    destruct (Rltb_spec (norml (me_cur x)) 0.0001), (Rlt_dec (norml (me_cur x)) 0.0001); try lra; try reflexivity.
    destruct (Rltb_spec (norm3 h) 30), (Rlt_dec (norm3 h) 30); try lra; reflexivity.
Qed.
Print Assumptions C59_bound.
(** a manager whose clock is a Clock, a mission that has started and one that is over *)
Definition ex_man (c : Clock R) : Man := mkMan (fun d => Ok (is_after c d)) ball (s_rw ball).
Definition ex_clock : Clock R := mkClock 0%R 2023%Z 6%Z 15%Z 12%Z 30%Z 30%R false false.
Definition ex_mission (y1 y2 : Z) : Mission := mkMission (mkDate y1 1%Z 1%Z 0%Z 0%Z 0%R) (mkDate y2 1%Z 1%Z 0%Z 0%Z 0%R).
Lemma ex_after y : mn_after (ex_man ex_clock) (mkDate y 1%Z 1%Z 0%Z 0%Z 0%R) = Ok (negb (2023 <? y)%Z).
Proof.
  unfold ex_man, ex_clock, is_after. cbn [mn_after year month day hour minute second d_year d_month d_day d_hour d_minute d_second]. destruct (2023 <? y)%Z; [reflexivity|]. cbn [negb]. 
  replace (nltb (T:=R) 30%R 0%R) with false; [reflexivity|]. symmetry. cbn [nltb RNum]. apply Rltb_false. lra.
Qed.
Example C59_ex : started (ex_man ex_clock) (mkSM (VS Safe) (Some (ex_mission 2023 2024)) false) true /\ over (ex_man ex_clock) (mkSM (VS Point) (Some (ex_mission 2023 2024)) false) false /\
  started (ex_man ex_clock) (mkSM (VS Safe) (Some (ex_mission 2024 2025)) false) false /\ over (ex_man ex_clock) (mkSM (VS Point) (Some (ex_mission 2022 2023)) false) true /\
  exists h, axes_dot (s_rw ball) [1; 2; 3]%R = Ok h.
Proof.
  repeat split; try (eexists; split; [reflexivity|apply ex_after]). eexists. reflexivity.
Qed.

(** ** C60: after a mission *)
(** as written: the call that finds the mission over goes to UNSAFE, and every later transition call raises there, for ever *)
Theorem C60_unsafe_for_ever : forall man x mi l, over man (mkSM (VS Point) (Some mi) false) true ->
  transitions false (mkSM (VS Point) (Some mi) false) ((man, x) :: l) = mkSM (VS Unsafe) (Some mi) false /\
  forall man' x', transition false man' x' (mkSM (VS Unsafe) (Some mi) false) = (mkSM (VS Unsafe) (Some mi) false, Exc TypeError).
Proof.
  intros man x mi l O. split; [|intros; reflexivity]. cbn [transitions]. assert (E := C59_rules man x (Some mi) Point true O). cbv zeta in E. rewrite E. cbn [goes fst sm_mission].
  apply C59_stuck. cbn. tauto.
Qed.
Print Assumptions C60_unsafe_for_ever.
(** were the helper calls bound, a mission that has started and ended makes the machine alternate for ever *)
Theorem C60_alternates : forall mi l, Forall (fun p : Man * Meas => mn_after (fst p) (ms_start mi) = Ok true /\ mn_after (fst p) (ms_end mi) = Ok true) l ->
  transitions true (mkSM (VS Point) (Some mi) false) l = mkSM (VS (if Nat.even (length l) then Point else Unsafe)) (Some mi) false.
Proof.
  intros mi l H. enough (G : transitions true (mkSM (VS Point) (Some mi) false) l = mkSM (VS (if Nat.even (length l) then Point else Unsafe)) (Some mi) false /\
    transitions true (mkSM (VS Unsafe) (Some mi) false) l = mkSM (VS (if Nat.even (length l) then Unsafe else Point)) (Some mi) false) by apply G.
  induction H as [|[man x] l [E1 E2] H [IH1 IH2]]; [split; reflexivity|]. cbn [fst] in E1, E2. cbn [transitions].
  assert (T1 : fst (transition true man x (mkSM (VS Point) (Some mi) false)) = mkSM (VS Unsafe) (Some mi) false) by (unfold transition; cbn [sm_cur sm_mission propose point_transition]; rewrite E2; reflexivity).
  assert (T2 : fst (transition true man x (mkSM (VS Unsafe) (Some mi) false)) = mkSM (VS Point) (Some mi) false) by (unfold transition; cbn [sm_cur sm_mission propose]; unfold unsafe_transition; cbn [self_call safe_transition]; rewrite E1; reflexivity).
  rewrite T1, T2, IH1, IH2. cbn [length]. rewrite Nat.even_succ, <- Nat.negb_even. split; destruct (Nat.even (length l)); reflexivity.
Qed.
Print Assumptions C60_alternates.
Example C60_ex : forall x, Forall (fun p : Man * Meas => mn_after (fst p) (ms_start (ex_mission 2022 2023)) = Ok true /\ mn_after (fst p) (ms_end (ex_mission 2022 2023)) = Ok true) [(ex_man ex_clock, x); (ex_man ex_clock, x)].
Proof. intros x. repeat (apply Forall_cons; [split; apply ex_after|]). apply Forall_nil. Qed.

(** ** C61: threads calling change_state and set_next_mission *)
(** every schedule: the writes, in the order in which they happen, are a sequential history with the same results that ends in the shared
    state; and at every moment the calls a thread has had served are, in program order, its program up to the calls not yet begun and at
    most the one in progress, while what it has been told are their results (so a call's place in the history lies between its start and
    its return) *)
Theorem C61_linearisable : forall bound s0 progs log s ts,
  (exists c, sh_cur s0 = VS c) -> sh_lock s0 = None -> (forall i, Forall member_call (progs i)) -> (forall i, Forall plain_call (progs i)) ->
  exec bound s0 (start progs) log s ts ->
  sequential (mkSM (sh_cur s0) (sh_mis s0) false) log (mkSM (sh_cur s) (sh_mis s) false) /\
  forall i, (exists now, map commit_call (of_thread i log) ++ now ++ th_todo (ts i) = progs i /\ (length now <= 1)%nat) /\
    (exists late, map commit_ret (of_thread i log) = th_rets (ts i) ++ late /\ (length late <= 1)%nat) /\
    (finished (ts i) -> map commit_call (of_thread i log) = progs i /\ map commit_ret (of_thread i log) = th_rets (ts i)).
Proof.
  intros bound s0 progs log s ts C L M P H. split; [apply (inv_seq _ _ _ _ (inv_exec _ _ _ _ _ _ C L M H))|]. intros i.
  destruct (ord_exec _ _ _ _ _ _ C L M P H i) as [_ OC OR]. split; [|split].
  - exists (pending (th_pc (ts i))). split; [exact OC|]. destruct (th_pc (ts i)); cbn; lia.
  - exists (inflight (th_pc (ts i))). split; [exact OR|]. destruct (th_pc (ts i)); cbn; lia.
  - intros [F1 F2]. rewrite F1, F2 in *. cbn in OC, OR. rewrite app_nil_r in OC, OR. auto.
Qed.
Print Assumptions C61_linearisable.
(** mutual exclusion: never two threads between acquire and release *)
Theorem C61_mutex : forall bound s0 progs log s ts, (exists c, sh_cur s0 = VS c) -> sh_lock s0 = None -> (forall i, Forall member_call (progs i)) ->
  exec bound s0 (start progs) log s ts -> forall i j, critical (th_pc (ts i)) = true -> critical (th_pc (ts j)) = true -> i = j.
Proof.
  intros bound s0 progs log s ts C L M H i j I J. assert (V := inv_exec _ _ _ _ _ _ C L M H). destruct (sh_lock s) as [k|] eqn:E.
  - destruct (inv_held _ _ _ _ V k E) as [_ O]. destruct (Nat.eq_dec i k) as [->|N1]; [|rewrite (O i N1) in I; discriminate]. destruct (Nat.eq_dec j k) as [->|N2]; [reflexivity|rewrite (O j N2) in J; discriminate].
  - rewrite (inv_free _ _ _ _ V E i) in I. discriminate.
Qed.
Print Assumptions C61_mutex.
(** no deadlock: while some thread has work left some thread can go on (automatic transitions included) *)
Theorem C61_no_deadlock : forall bound s0 progs log s ts, (exists c, sh_cur s0 = VS c) -> sh_lock s0 = None -> (forall i, Forall member_call (progs i)) ->
  exec bound s0 (start progs) log s ts -> (exists i, ~ finished (ts i)) -> exists i k s' t', tstep bound i s (ts i) k s' t'.
Proof.
  intros bound s0 progs log s ts C L M H [i F]. assert (V := inv_exec _ _ _ _ _ _ C L M H). destruct (sh_lock s) as [k|] eqn:E.
  - destruct (inv_held _ _ _ _ V k E) as [K _]. exists k. apply can_step; [apply V|apply V| |right; exact K]. intros [F1 _]. rewrite F1 in K. discriminate.
  - exists i. apply can_step; [apply V|apply V|exact F|left; exact E].
Qed.
Print Assumptions C61_no_deadlock.
(** every run is over within seven steps per call; with no deadlock, every call returns *)
Theorem C61_terminates : forall bound n progs s0 k s ts, (forall i, (n <= i)%nat -> progs i = []) -> steps bound k s0 (start progs) s ts -> (k <= 7 * total n (fun i => length (progs i)))%nat.
Proof.
  intros bound n progs s0 k s ts F H. assert (F0 : forall i, (n <= i)%nat -> finished (start progs i)) by (intros i Hi; split; [reflexivity|apply F, Hi]).
  destruct (steps_bound _ _ _ _ _ _ _ H F0) as [_ B]. assert (E : total n (fun i => work (start progs i)) = (7 * total n (fun i => length (progs i)))%nat); [|lia].
  clear. induction n as [|n IH]; [reflexivity|]. cbn [total]. rewrite IH. unfold work, start. cbn [th_pc th_todo pc_work]. lia.
Qed.
Print Assumptions C61_terminates.
(** so a run that cannot go on has served everything, and left the lock free *)
Theorem C61_complete : forall bound s0 progs log s ts, (exists c, sh_cur s0 = VS c) -> sh_lock s0 = None -> (forall i, Forall member_call (progs i)) ->
  exec bound s0 (start progs) log s ts -> (forall i k s' t', ~ tstep bound i s (ts i) k s' t') -> (forall i, ~ ~ finished (ts i)) /\ sh_lock s = None.
Proof.
  intros bound s0 progs log s ts C L M H N. assert (F : forall i, ~ ~ finished (ts i)).
  { intros i F. destruct (C61_no_deadlock _ _ _ _ _ _ C L M H (ex_intro _ i F)) as (j & k & s' & t' & T). exact (N _ _ _ _ T). }
  split; [exact F|]. destruct (sh_lock s) as [k|] eqn:E; [|reflexivity]. exfalso. apply (F k). intros [F1 _].
  destruct (inv_held _ _ _ _ (inv_exec _ _ _ _ _ _ C L M H) k E) as [K _]. rewrite F1 in K. discriminate.
Qed.
Print Assumptions C61_complete.
(** running forwards *)
Lemma exec_cons bound i s ts k s1 t1 log s2 ts2 : tstep bound i s (ts i) k s1 t1 -> exec bound s1 (tset ts i t1) log s2 ts2 ->
  exec bound s ts (match k with Some k => [(i, k)] | None => [] end ++ log) s2 ts2.
Proof.
  intros T E. remember (tset ts i t1) as u. revert ts T Hequ. induction E as [s1 us|s1 us log s3 ts3 j k3 s4 t4 E IH T3]; intros ts0 T E0; subst.
  - rewrite app_nil_r. apply (e_step bound s ts0 [] s ts0 i k s1 t1 (e_refl _ _ _) T).
  - rewrite app_assoc. eapply e_step; [apply IH; [exact T|reflexivity]|exact T3].
Qed.
(** two threads: a run in which both threads' commands interleave; the second thread's command comes first although it started last *)
Definition two (p q : list Call) : nat -> list Call := fun i => match i with O => p | S O => q | _ => [] end.
Example C61_ex : (forall i, Forall member_call (two [CChange (VS Unsafe)] [CChange (VS Failed)] i)) /\ (forall i, Forall plain_call (two [CChange (VS Unsafe)] [CChange (VS Failed)] i)) /\
  exists ts, exec false (mkSh (VS Sleep) None None) (start (two [CChange (VS Unsafe)] [CChange (VS Failed)])) [(1%nat, KChange (VS Failed) false true); (0%nat, KChange (VS Unsafe) false true)] (mkSh (VS Unsafe) None None) ts /\
    finished (ts 0%nat) /\ finished (ts 1%nat).
Proof.
  split; [|split].
  1, 2: intros [|[|i]]; cbn; repeat constructor.
  eexists. split.
  - change [(1%nat, KChange (VS Failed) false true); (0%nat, KChange (VS Unsafe) false true)] with
     ([] ++ [] ++ [] ++ [] ++ [(1%nat, KChange (VS Failed) false true)] ++ [] ++ [] ++ [] ++ [(0%nat, KChange (VS Unsafe) false true)] ++ [] ++ @nil (nat * Commit)).
    eapply (exec_cons false 0%nat _ _ None); [apply s_call_ch|]. eapply (exec_cons false 1%nat _ _ None); [apply s_call_ch|].
    eapply (exec_cons false 1%nat _ _ None); [apply s_ch_acq|]. eapply (exec_cons false 1%nat _ _ None); [apply s_ch_chk; reflexivity|].
    eapply (exec_cons false 1%nat _ _ (Some _)); [apply s_ch_wr|]. eapply (exec_cons false 1%nat _ _ None); [apply s_ch_rel|].
    eapply (exec_cons false 0%nat _ _ None); [apply s_ch_acq|]. eapply (exec_cons false 0%nat _ _ None); [apply s_ch_chk; reflexivity|].
    eapply (exec_cons false 0%nat _ _ (Some _)); [apply s_ch_wr|]. eapply (exec_cons false 0%nat _ _ None); [apply s_ch_rel|]. apply e_refl.
  - split; split; reflexivity.
Qed.

(** ** C62: transition() among other threads *)
(** its writes too are moves of the table: with transitions running, the writes still form a sequential history of commands *)
Theorem C62_commits : forall bound s0 progs log s ts, (exists c, sh_cur s0 = VS c) -> sh_lock s0 = None -> (forall i, Forall member_call (progs i)) ->
  exec bound s0 (start progs) log s ts -> sequential (mkSM (sh_cur s0) (sh_mis s0) false) log (mkSM (sh_cur s) (sh_mis s) false) /\ exists c, sh_cur s = VS c.
Proof. intros bound s0 progs log s ts C L M H. assert (V := inv_exec _ _ _ _ _ _ C L M H). split; apply V. Qed.
Print Assumptions C62_commits.
(** run without interruption it is the sequential transition *)
Inductive alone (bound : bool) (i : nat) : Shared -> Thread -> Shared -> Thread -> Prop :=
| al_refl : forall s t, alone bound i s t s t
| al_step : forall s t k s1 t1 s2 t2, tstep bound i s t k s1 t1 -> alone bound i s1 t1 s2 t2 -> alone bound i s t s2 t2.
Definition told (o : out unit) (r : list Ret) : Prop := match o with Done _ => r = [RNone] | Exc e => r = [RExc e] | Blocked => False end.
Theorem C62_uninterrupted : forall bound i a mi man x s t, alone bound i (mkSh (VS a) mi None) (mkTh Idle [CTransition man x] []) s t -> finished t ->
  let r := transition bound man x (mkSM (VS a) mi false) in mkSM (sh_cur s) (sh_mis s) false = fst r /\ sh_lock s = None /\ told (snd r) (th_rets t).
Proof.
  intros bound i a mi man x s t H F. cbv zeta. unfold transition. cbn [sm_cur sm_mission].
  inversion H as [|? ? ? ? ? ? ? T1 H1]; subst; [destruct F as [_ F]; discriminate|]. inversion T1; subst; clear T1 H.
  inversion H1 as [|? ? ? ? ? ? ? T2 H2]; subst; [destruct F as [F _]; discriminate|]. inversion T2; subst; clear T2 H1. cbn [sh_mis sh_cur] in *.
  assert (END : forall s l, alone bound i s (mkTh Idle [] l) s t -> t = mkTh Idle [] l) by (intros u l E; inversion E as [|? ? ? ? ? ? ? T E2]; [reflexivity|inversion T]).
  assert (END2 : forall s1 s2 l, alone bound i s1 (mkTh Idle [] l) s2 t -> s2 = s1 /\ t = mkTh Idle [] l) by (intros u1 u2 l E; inversion E as [|? ? ? ? ? ? ? T E2]; [auto|inversion T]).
  inversion H2 as [|? ? ? ? ? ? ? T3 H3]; subst; [destruct F as [F _]; discriminate|].
  inversion T3 as [| | | |? ? ? ? ? ? ? ? E0|? ? ? ? ? ? ? ? E0 E1|? ? ? ? ? ? ? ? E0 E1| | | | | | | |]; subst; rewrite E0; clear T3 H2.
  - apply END2 in H3. destruct H3 as [-> ->]. repeat split.
  - apply END2 in H3. destruct H3 as [-> ->]. rewrite E1. repeat split.
  - rewrite E1. rewrite C57_step.
    inversion H3 as [|? ? ? ? ? ? ? T4 H4]; subst; [destruct F as [F _]; discriminate|]. inversion T4; subst; clear T4 H3.
    inversion H4 as [|? ? ? ? ? ? ? T5 H5]; subst; [destruct F as [F _]; discriminate|].
    inversion T5 as [| | | | | | | |? ? ? ? ? ? E5|? ? ? ? ? ? E5| | | | |]; subst; cbn [sh_cur] in E5; rewrite accepts_listed in E5; [|discriminate]. injection E5 as <-. clear T5 H4.
    inversion H5 as [|? ? ? ? ? ? ? T6 H6]; subst; [destruct F as [F _]; discriminate|]. inversion T6; subst; clear T6 H5.
    inversion H6 as [|? ? ? ? ? ? ? T7 H7]; subst; [destruct F as [F _]; discriminate|]. inversion T7; subst; clear T7 H6.
    apply END2 in H7. destruct H7 as [-> ->]. cbn [sh_cur sh_mis th_rets]. destruct (listed a n); repeat split.
Qed.
Print Assumptions C62_uninterrupted.
(** sequential runs of calls from several threads *)
Definition run_call (bound : bool) (m : SM) (c : Call) : SM :=
  match c with CChange v => fst (change_state m v) | CMission mi => fst (set_next_mission m mi) | CTransition man x => fst (transition bound man x m) end.
(** all ways of merging two programs *)
Inductive merge : list Call -> list Call -> list Call -> Prop :=
| mg_nil : merge [] [] []
| mg_l : forall a p q r, merge p q r -> merge (a :: p) q (a :: r)
| mg_r : forall a p q r, merge p q r -> merge p (a :: q) (a :: r).
(** the race: an operator's accepted MANUAL command is undone by a transition that decided before it, although in either order the machine
    would be in MANUAL *)
Theorem C62_race_refuted : forall man x mi, mn_after man (ms_end mi) = Ok true ->
  (exists log ts, exec false (mkSh (VS Point) (Some mi) None) (start (two [CTransition man x] [CChange (VS Manual)])) log (mkSh (VS Unsafe) (Some mi) None) ts /\
    finished (ts 0%nat) /\ th_rets (ts 0%nat) = [RNone] /\ finished (ts 1%nat) /\ th_rets (ts 1%nat) = [RBool true]) /\
  (forall r, merge [CTransition man x] [CChange (VS Manual)] r -> sm_cur (fold_left (run_call false) r (mkSM (VS Point) (Some mi) false)) = VS Manual).
Proof.
  intros man x mi A. assert (P : propose false man x (VS Point) (Some mi) = Ok Unsafe) by (cbn; rewrite A; reflexivity). split.
  - eexists. eexists. split.
    + eapply (exec_cons false 0%nat _ _ None); [apply s_call_tr|]. eapply (exec_cons false 0%nat _ _ None); [apply s_tr_mis|].
      eapply (exec_cons false 0%nat _ _ None); [eapply s_tr_go; [exact P|reflexivity]|].
      eapply (exec_cons false 1%nat _ _ None); [apply s_call_ch|]. eapply (exec_cons false 1%nat _ _ None); [apply s_ch_acq|].
      eapply (exec_cons false 1%nat _ _ None); [apply s_ch_chk; reflexivity|]. eapply (exec_cons false 1%nat _ _ (Some _)); [apply s_ch_wr|].
      eapply (exec_cons false 1%nat _ _ None); [apply s_ch_rel|].
      eapply (exec_cons false 0%nat _ _ None); [apply s_ch_acq|]. eapply (exec_cons false 0%nat _ _ None); [apply s_ch_chk; reflexivity|].
      eapply (exec_cons false 0%nat _ _ (Some _)); [apply s_ch_wr|]. eapply (exec_cons false 0%nat _ _ None); [apply s_ch_rel|]. apply e_refl.
    + repeat split.
  - intros r M. assert (T : fst (transition false man x (mkSM (VS Point) (Some mi) false)) = mkSM (VS Unsafe) (Some mi) false) by (unfold transition; cbn [sm_cur sm_mission]; rewrite P; reflexivity).
    inversion M as [|a p q r1 M1|a p q r1 M1]; subst.
    + inversion M1 as [| |a p q r2 M2]; subst. inversion M2; subst. cbn [fold_left run_call]. rewrite T. reflexivity.
    + inversion M1 as [|a p q r2 M2|]; subst. inversion M2; subst. reflexivity.
Qed.
Print Assumptions C62_race_refuted.
(** worse: two accepted commands in between, and the transition's late write ends in FAILED, where no order of the three calls ends *)
Theorem C62_failed_refuted : forall man x mi, mn_after man (ms_end mi) = Ok true -> mn_after man (ms_start mi) = Ok true ->
  (exists log ts, exec false (mkSh (VS Point) (Some mi) None) (start (two [CTransition man x] [CChange (VS Unsafe); CChange (VS Safe)])) log (mkSh (VS Failed) (Some mi) None) ts /\
    finished (ts 0%nat) /\ th_rets (ts 0%nat) = [RNone] /\ finished (ts 1%nat) /\ th_rets (ts 1%nat) = [RBool true; RBool true]) /\
  (forall r, merge [CTransition man x] [CChange (VS Unsafe); CChange (VS Safe)] r -> sm_cur (fold_left (run_call false) r (mkSM (VS Point) (Some mi) false)) <> VS Failed).
Proof.
  intros man x mi A B. assert (P : propose false man x (VS Point) (Some mi) = Ok Unsafe) by (cbn; rewrite A; reflexivity). split.
  - eexists. eexists. split.
    + eapply (exec_cons false 0%nat _ _ None); [apply s_call_tr|]. eapply (exec_cons false 0%nat _ _ None); [apply s_tr_mis|].
      eapply (exec_cons false 0%nat _ _ None); [eapply s_tr_go; [exact P|reflexivity]|].
      eapply (exec_cons false 1%nat _ _ None); [apply s_call_ch|]. eapply (exec_cons false 1%nat _ _ None); [apply s_ch_acq|].
      eapply (exec_cons false 1%nat _ _ None); [apply s_ch_chk; reflexivity|]. eapply (exec_cons false 1%nat _ _ (Some _)); [apply s_ch_wr|].
      eapply (exec_cons false 1%nat _ _ None); [apply s_ch_rel|].
      eapply (exec_cons false 1%nat _ _ None); [apply s_call_ch|]. eapply (exec_cons false 1%nat _ _ None); [apply s_ch_acq|].
      eapply (exec_cons false 1%nat _ _ None); [apply s_ch_chk; reflexivity|]. eapply (exec_cons false 1%nat _ _ (Some _)); [apply s_ch_wr|].
      eapply (exec_cons false 1%nat _ _ None); [apply s_ch_rel|].
      eapply (exec_cons false 0%nat _ _ None); [apply s_ch_acq|]. eapply (exec_cons false 0%nat _ _ None); [apply s_ch_chk; reflexivity|].
      eapply (exec_cons false 0%nat _ _ (Some _)); [apply s_ch_wr|]. eapply (exec_cons false 0%nat _ _ None); [apply s_ch_rel|]. apply e_refl.
    + repeat split.
  - intros r M. assert (T : fst (transition false man x (mkSM (VS Point) (Some mi) false)) = mkSM (VS Unsafe) (Some mi) false) by (unfold transition; cbn [sm_cur sm_mission]; rewrite P; reflexivity).
    assert (T3 : fst (transition false man x (mkSM (VS Safe) (Some mi) false)) = mkSM (VS Point) (Some mi) false) by (unfold transition; cbn [sm_cur sm_mission propose safe_transition]; rewrite B; reflexivity).
    inversion M as [|a p q r1 M1|a p q r1 M1]; subst.
    + inversion M1 as [| |a p q r2 M2]; subst. inversion M2 as [| |a p q r3 M3]; subst. inversion M3; subst. cbn [fold_left run_call]. rewrite T. discriminate.
    + inversion M1 as [|a p q r2 M2|a p q r2 M2]; subst.
      * inversion M2 as [| |a p q r3 M3]; subst. inversion M3; subst. discriminate.
      * inversion M2 as [|a p q r3 M3|]; subst. inversion M3; subst. cbn [fold_left run_call]. rewrite C57_step. cbn [listed fst]. rewrite C57_step. cbn [listed fst]. rewrite T3. discriminate.
Qed.
Print Assumptions C62_failed_refuted.
Example C62_ex : mn_after (ex_man ex_clock) (ms_end (ex_mission 2022 2023)) = Ok true /\ mn_after (ex_man ex_clock) (ms_start (ex_mission 2022 2023)) = Ok true.
Proof. split; apply ex_after. Qed.

(** ** C63: a command that is not a State *)
(** in BBQ the integer 7 is accepted and stored; then transition raises, and the next command raises and keeps the lock *)
Theorem C63_wedge_refuted : forall mi v man x bound, let m1 := mkSM (VI 7%Z) mi false in let m2 := mkSM (VI 7%Z) mi true in
  change_state (mkSM (VS Bbq) mi false) (VI 7%Z) = (m1, Done true) /\ transition bound man x m1 = (m1, Exc AttributeError) /\
  change_state m1 v = (m2, Exc KeyError) /\ transition bound man x m2 = (m2, Exc AttributeError).
Proof. intros. repeat split. Qed.
Print Assumptions C63_wedge_refuted.
(** after that nothing is ever obeyed: every command and mission blocks, and no call changes anything *)
Theorem C63_dead : forall bound l m, sm_locked m = true -> fold_left (run_call bound) l m = m /\ (forall v, change_state m v = (m, Blocked)) /\ (forall mi, set_next_mission m mi = (m, Blocked)).
Proof.
  intros bound l m L. assert (S : forall c, run_call bound m c = m).
  { intros [v|mi|man x]; cbn [run_call]; [unfold change_state|unfold set_next_mission|unfold transition, change_state]; rewrite ?L; try reflexivity.
    destruct (propose _ _ _ _ _); [|reflexivity]. destruct (val_eqb _ _); reflexivity. }
  split; [|split; intros; [unfold change_state|unfold set_next_mission]; rewrite L; reflexivity].
  induction l as [|c l IH]; [reflexivity|]. cbn [fold_left]. rewrite S. exact IH.
Qed.
Print Assumptions C63_dead.
(** the same among threads: once some call has raised with the lock held, no schedule of any calls ever writes again *)
Theorem C63_dead_threads : forall bound s ts log s' ts', leaked s ts -> exec bound s ts log s' ts' -> log = [] /\ sh_cur s' = sh_cur s /\ sh_mis s' = sh_mis s /\ leaked s' ts'.
Proof.
  intros bound s ts log s' ts' L H. induction H as [s ts|s ts log s1 ts1 i k s2 t2 H IH T]; [auto|]. destruct (IH L) as (-> & C & M & L1).
  destruct (leak_step _ _ _ _ _ _ _ L1 T) as (L2 & C2 & M2 & -> & _). repeat split; try congruence; try apply L2.
Qed.
Print Assumptions C63_dead_threads.
(** any other value than a State or the integer 7 is refused as a bad command (FAILED), and only BBQ accepts 7 *)
Theorem C63_other : forall a mi v, (forall s, v <> VS s) -> change_state (mkSM (VS a) mi false) v = (mkSM (VS Failed) mi false, Done false) \/ (a = Bbq /\ v = VI 7%Z).
Proof.
  intros a mi [s|n|] N; [exfalso; apply (N s); reflexivity| |left; destruct a; reflexivity]. destruct (Z.eq_dec n 7) as [->|E].
  - destruct a; try (left; reflexivity). right. auto.
  - left. unfold change_state. cbn [sm_locked sm_cur accepts]. replace (existsb (val_eqb (VI n)) (row a)) with false; [reflexivity|]. destruct a; try reflexivity. cbn. apply Z.eqb_neq in E. rewrite E. reflexivity.
Qed.
Print Assumptions C63_other.
(** with State arguments only the current state is always a State and the lock is released by every call *)
Theorem C63_released : forall bound l a mi, Forall member_call l -> exists b mi', fold_left (run_call bound) l (mkSM (VS a) mi false) = mkSM (VS b) mi' false.
Proof.
  intros bound l. induction l as [|c l IH]; intros a mi M; [exists a, mi; reflexivity|]. assert (M1 := Forall_inv M). assert (M2 := Forall_inv_tail M). cbn [fold_left].
  assert (S : forall b, exists b', fst (change_state (mkSM (VS a) mi false) (VS b)) = mkSM (VS b') mi false) by (intros b; rewrite C57_step; destruct (listed a b); eexists; reflexivity).
  destruct c as [[b|n|]|mi1|man x]; try contradiction.
  - destruct (S b) as [b' E]. cbn [run_call]. rewrite E. apply IH, M2.
  - apply IH, M2.
  - cbn [run_call]. unfold transition. cbn [sm_cur sm_mission]. destruct (propose bound man x (VS a) mi) as [n|e]; [|apply IH, M2]. destruct (val_eqb _ _); [apply IH, M2|].
    destruct (S n) as [b' E]. destruct (change_state (mkSM (VS a) mi false) (VS n)) as [m' o]. cbn [fst] in *. subst m'. apply IH, M2.
Qed.
Print Assumptions C63_released.
Example C63_ex : leaked (mkSh (VI 7%Z) None (Some 0%nat)) (start (two [] [CChange (VS Safe)])) /\
  exists ts, exec false (mkSh (VS Bbq) None None) (start (two [CChange (VI 7%Z); CChange (VS Safe)] [CChange (VS Safe)])) [(0%nat, KChange (VI 7%Z) false true)] (mkSh (VI 7%Z) None (Some 0%nat)) ts /\
    leaked (mkSh (VI 7%Z) None (Some 0%nat)) ts /\ th_rets (ts 0%nat) = [RBool true; RExc KeyError].
Proof.
  split; [split; [discriminate|]; intros [|[|i]]; reflexivity|]. eexists. split.
  - change [(0%nat, KChange (VI 7%Z) false true)] with ([] ++ [] ++ [] ++ [(0%nat, KChange (VI 7%Z) false true)] ++ [] ++ [] ++ [] ++ [] ++ @nil (nat * Commit)).
    eapply (exec_cons false 0%nat _ _ None); [apply s_call_ch|]. eapply (exec_cons false 0%nat _ _ None); [apply s_ch_acq|].
    eapply (exec_cons false 0%nat _ _ None); [apply s_ch_chk; reflexivity|]. eapply (exec_cons false 0%nat _ _ (Some _)); [apply s_ch_wr|].
    eapply (exec_cons false 0%nat _ _ None); [apply s_ch_rel|]. eapply (exec_cons false 0%nat _ _ None); [apply s_call_ch|].
    eapply (exec_cons false 0%nat _ _ None); [apply s_ch_acq|]. eapply (exec_cons false 0%nat _ _ None); [eapply s_ch_exc; reflexivity|]. apply e_refl.
  - split; [|reflexivity]. split; [discriminate|]. intros [|[|i]]; reflexivity.
Qed.
