(** * Lemmas: a simulated flight evaluates the field on freshly made states only *)
From Coq Require Import Reals ZArith List Bool Arith Lra Psatz Lia ClassicalDedekindReals.
From Verif Require Import Num Vec M_vector M_quaternion M_jday M_frame M_struct M_env M_dyn M_sensor M_integ.
From Verif Require Import S_rot S_integ S_dyn P_integ2 P_dyn P_orb5 P_run1.
Import ListNotations.
Local Open Scope R_scope.

(** the field, refusing every state that [make_state] did not make *)
Definition newly (f : store -> SatState -> res SVec) (h : store) (s : SatState) : res SVec :=
  if sig_not_dec (fresh h s) then f h s else Raise IndexError.
Lemma newly_ok f h s d : newly f h s = Ok d -> fresh h s /\ f h s = Ok d.
Proof.
  unfold newly. destruct (sig_not_dec (fresh h s)) as [N|N]; [|discriminate]. intros E. split; [|exact E].
  destruct (Classical_Prop.classic (fresh h s)) as [X|X]; [exact X|contradiction].
Qed.
Lemma newly_in f h s : fresh h s -> newly f h s = f h s.
Proof. intros F. unfold newly. destruct (sig_not_dec (fresh h s)) as [N|N]; [reflexivity|contradiction]. Qed.
Lemma rk4_newly f h dt s s' : fresh h s -> RK4_sat h (f h) dt s = Ok s' -> RK4_sat h (newly f h) dt s = Ok s'.
Proof.
  intros FR E. unfold RK4_sat, RK4_step in *. rewrite newly_in by exact FR. apply rbind_ok in E. destruct E as (k1 & -> & E). cbn [rbind].
  apply rbind_ok in E. destruct E as (k2 & E2 & E). apply rbind_ok in E2. destruct E2 as (s2 & T2 & E2). rewrite T2. cbn [rbind]. rewrite newly_in, E2 by (apply state_add_inv in T2; apply T2). cbn [rbind].
  apply rbind_ok in E. destruct E as (k3 & E3 & E). apply rbind_ok in E3. destruct E3 as (s3 & T3 & E3). rewrite T3. cbn [rbind]. rewrite newly_in, E3 by (apply state_add_inv in T3; apply T3). cbn [rbind].
  apply rbind_ok in E. destruct E as (k4 & E4 & E). apply rbind_ok in E4. destruct E4 as (s4 & T4 & E4). rewrite T4. cbn [rbind]. rewrite newly_in, E4 by (apply state_add_inv in T4; apply T4). cbn [rbind]. exact E.
Qed.
Lemma updates_newly f stream sim dt n : forall w w', fresh (w_store w) (w_state w) -> updates f stream sim dt n w = Ok w' -> updates (newly f) stream sim dt n w = Ok w'.
Proof.
  induction n as [|n IH]; intros w w' FR E; [exact E|]. cbn [updates] in *. apply rbind_ok in E. destruct E as (w1 & E1 & E).
  destruct (update_inv _ _ _ _ _ _ E1) as (next & c & HR & _ & _ & _ & _ & FR1 & _).
  assert (E2 : update (newly f) stream sim dt w = Ok w1). { unfold update in *. apply rbind_ok in E1. destruct E1 as (x & EX & E1). rewrite (rk4_newly _ _ _ _ _ FR EX). exact E1. }
  rewrite E2. cbn [rbind]. exact (IH _ _ FR1 E).
Qed.
