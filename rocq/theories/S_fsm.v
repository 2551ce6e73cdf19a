(** * Specification of the state machine *)
From Coq Require Import Reals ZArith List Bool.
From Verif Require Import Num M_fsm.
Import ListNotations.

(** the moves between modes, written out independently of the table (the move from BBQ to POINT is missing in the table) *)
Definition listed (a b : St) : bool :=
  match a, b with
  | _, Failed => true
  | Failed, Unsafe => true
  | Sleep, (Sleep | Unsafe) => true
  | Unsafe, (Unsafe | Safe | Detumble | Bbq | Point | Manual) => true
  | Safe, (Safe | Spindown | Bbq | Point | Manual) => true
  | Spindown, (Spindown | Sleep) => true
  | Detumble, (Detumble | Bbq | Point | Manual) => true
  | Bbq, (Bbq | Safe | Manual) => true
  | Point, (Point | Unsafe | Manual) => true
  | Manual, (Manual | Unsafe | Point) => true
  | _, _ => false
  end.
Definition after_command (a b : St) : St := if listed a b then b else Failed.
Fixpoint after_commands (a : St) (l : list St) : St := match l with [] => a | b :: r => after_commands (after_command a b) r end.
(** all commands accepted along the way *)
Fixpoint all_listed (a : St) (l : list St) : Prop := match l with [] => True | b :: r => listed a b = true /\ all_listed b r end.

(** a sequential run of the committed operations with the given results *)
Definition commit_call (k : Commit) : Call := match k with KChange v _ _ => CChange v | KMission mi => CMission mi end.
Definition commit_ret (k : Commit) : Ret := match k with KChange _ tr b => if tr then RNone else RBool b | KMission _ => RNone end.
Inductive sequential : SM -> list (nat * Commit) -> SM -> Prop :=
| q_nil : forall m, sequential m [] m
| q_change : forall m i v tr b m1 r m2, change_state m v = (m1, Done b) -> sequential m1 r m2 -> sequential m ((i, KChange v tr b) :: r) m2
| q_mission : forall m i mi m1 r m2, set_next_mission m mi = (m1, Done tt) -> sequential m1 r m2 -> sequential m ((i, KMission mi) :: r) m2.
Definition of_thread (i : nat) (log : list (nat * Commit)) : list Commit := map snd (filter (fun p => Nat.eqb (fst p) i) log).
Definition finished (t : Thread) : Prop := th_pc t = Idle /\ th_todo t = [].
(** executions counted in steps *)
Inductive steps (bound : bool) : nat -> Shared -> Threads -> Shared -> Threads -> Prop :=
| n_refl : forall s ts, steps bound 0 s ts s ts
| n_step : forall n s ts s1 ts1 i k s2 t2, steps bound n s ts s1 ts1 -> tstep bound i s1 (ts1 i) k s2 t2 -> steps bound (S n) s ts s2 (tset ts1 i t2).
(** calls with members of State only *)
Definition member_call (c : Call) : Prop := match c with CChange (VS _) => True | CChange _ => False | _ => True end.
Definition plain_call (c : Call) : Prop := match c with CTransition _ _ => False | _ => True end.
(** inside the locked region *)
Definition critical (p : PC) : bool := match p with ChChk _ _ | ChWr _ _ _ | ChRel _ _ | MsWr _ | MsRel => true | _ => false end.
