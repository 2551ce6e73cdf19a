(** * Model of configuration/state_machine.py: modes, automatic transitions, the state machine and its threads *)
From Coq Require Import Reals ZArith List Bool.
From Verif Require Import Num Vec M_vector M_quaternion M_jday M_struct M_dyn M_ctrl.
Import ListNotations.
Local Open Scope R_scope.

(** state_machine.py:5-14 [State] *)
Inductive St := Failed | Sleep | Unsafe | Safe | Spindown | Detumble | Bbq | Point | Manual.
Definition st_value (s : St) : Z :=
  match s with Failed => 0 | Sleep => 1 | Unsafe => 2 | Safe => 3 | Spindown => 4 | Detumble => 5 | Bbq => 6 | Point => 7 | Manual => 8 end%Z.
Definition st_eqb (a b : St) : bool := (st_value a =? st_value b)%Z.
(** what a caller may pass as a state: a member, a number, or anything that compares unequal to both.  [State] is a plain Enum, so a
    member never equals a number. *)
Inductive Val := VS (s : St) | VI (z : Z) | VOther.
Definition val_eqb (a b : Val) : bool :=
  match a, b with VS a, VS b => st_eqb a b | VI a, VI b => (a =? b)%Z | _, _ => false end.
(** state_machine.py:376-386: the table; the row of BBQ contains [State.POINT.value] *)
Definition row (s : St) : list Val :=
  match s with
  | Failed => [VS Failed; VS Unsafe]
  | Sleep => [VS Sleep; VS Failed; VS Unsafe]
  | Unsafe => [VS Failed; VS Unsafe; VS Safe; VS Detumble; VS Bbq; VS Point; VS Manual]
  | Safe => [VS Failed; VS Safe; VS Spindown; VS Point; VS Bbq; VS Manual]
  | Spindown => [VS Failed; VS Sleep; VS Spindown]
  | Detumble => [VS Failed; VS Detumble; VS Bbq; VS Point; VS Manual]
  | Bbq => [VS Failed; VS Safe; VS Bbq; VI (st_value Point); VS Manual]
  | Point => [VS Failed; VS Point; VS Unsafe; VS Manual]
  | Manual => [VS Failed; VS Point; VS Unsafe; VS Manual]
  end.
(** [new_state in self._valid_transition[cur]]: a key that is not a member raises KeyError *)
Definition accepts (cur new : Val) : res bool :=
  match cur with VS s => Ok (existsb (val_eqb new) (row s)) | _ => Raise KeyError end.

(** state_machine.py:351-370 [Mission] (target and instrument play no part here) *)
Record Mission := mkMission { ms_start : Date R; ms_end : Date R }.
(** what the transition rules read of the manager: the clock's is_after (reading it may raise), the satellite of the magnetorquer
    controller, the wheels *)
Record Man := mkMan { mn_after : Date R -> res bool; mn_sat : Satellite; mn_wheels : RWS }.
Record Meas := mkMeas { me_att : quat; me_rate : v3; me_whl : list R; me_cur : list R; me_accl : list R }.
(** state_machine.py:24-58 [SAFE_transition]; the attribute of a missing mission raises AttributeError *)
Definition safe_transition (man : Man) (mi : option Mission) : res St :=
  match mi with None => Raise AttributeError | Some m => rbind (mn_after man (ms_start m)) (fun b : bool => Ok (if b then Point else Safe)) end.
(** a call [self.X_transition(...)] inside another transition method.  [State.transition] (16-21) passes the class itself as [self],
    so [self.X_transition] is the plain function and the call, written for a bound method, lacks its last argument: TypeError.
    [bound = false] is the code; [bound = true] is what the calls would do if the receiver were bound. *)
Definition self_call (bound : bool) (r : res St) : res St := if bound then r else Raise TypeError.
(** state_machine.py:60-97 [DETUMBLE_transition] *)
Definition detumble_transition (bound : bool) (man : Man) (mi : option Mission) (x : Meas) : res St :=
  rbind (self_call bound (safe_transition man mi)) (fun i =>
  if st_eqb i Point then Ok Point
  else if Rleb 0.05 (norm3 (me_rate x)) then Ok Detumble else Ok Bbq).
(** [axes.dot(wheel_vel)]: ValueError unless there is one speed per wheel *)
Definition axes_dot (s : RWS) (v : list R) : res v3 :=
  if Nat.eqb (length v) (length (rw_wheels s)) then Ok (sum3 (zip_with (fun w x => scale3 x (w_axis w)) (rw_wheels s) v)) else Raise ValueError.
(** state_machine.py:99-138 [BBQ_transition] *)
Definition bbq_transition (bound : bool) (man : Man) (mi : option Mission) (x : Meas) : res St :=
  rbind (self_call bound (safe_transition man mi)) (fun i =>
  if st_eqb i Point then Ok Point
  else
    let aligned := Rltb (mag_check (mn_sat man) (me_att x) (me_rate x)) 0.0001 in
    let low_ctrl := Rltb (norml (me_cur x)) 0.0001 in
    rbind (axes_dot (mn_wheels man) (me_whl x)) (fun h =>
    let low_whls := Rltb (norm3 h) 30 in
    Ok (if aligned && low_ctrl && low_whls then Safe else Bbq))).
(** state_machine.py:140-176 [UNSAFE_transition]: the calls at 173 and 175 leave out [mission] and, even bound, lack an argument *)
Definition unsafe_transition (bound : bool) (man : Man) (mi : option Mission) (x : Meas) : res St :=
  rbind (self_call bound (safe_transition man mi)) (fun i =>
  if st_eqb i Point then Ok Point else Raise TypeError).
(** state_machine.py:178-211 [SPINDOWN_transition] *)
Definition spindown_transition (x : Meas) : res St :=
  let low_accl := Rltb (norml (me_accl x)) 0.00001 in
  let low_vel := Rltb (norml (me_whl x)) 0.01 in
  Ok (if low_accl && low_vel then Sleep else Spindown).
(** state_machine.py:281-315 [POINT_transition] *)
Definition point_transition (man : Man) (mi : option Mission) : res St :=
  match mi with None => Raise AttributeError | Some m => rbind (mn_after man (ms_end m)) (fun b : bool => Ok (if b then Unsafe else Point)) end.
(** state_machine.py:16-21 [State.transition], 213-279, 317-349: the dispatch; a state that is not a member has no [name] *)
Definition propose (bound : bool) (man : Man) (x : Meas) (cur : Val) (mi : option Mission) : res St :=
  match cur with
  | VS Failed => Ok Failed
  | VS Sleep => Ok Sleep
  | VS Unsafe => unsafe_transition bound man mi x
  | VS Safe => safe_transition man mi
  | VS Spindown => spindown_transition x
  | VS Detumble => detumble_transition bound man mi x
  | VS Bbq => bbq_transition bound man mi x
  | VS Point => point_transition man mi
  | VS Manual => Ok Manual
  | _ => Raise AttributeError
  end.

(** ** state_machine.py:372-477 [StateMachine], one caller *)
Record SM := mkSM { sm_cur : Val; sm_mission : option Mission; sm_locked : bool }.
Definition sm_new : SM := mkSM (VS Sleep) None false.
(** what a call does: return, raise, or wait for ever on a lock nobody will release *)
Inductive out (A : Type) := Done (a : A) | Exc (e : exn) | Blocked.
Arguments Done {A} _. Arguments Exc {A} _. Arguments Blocked {A}.
(** state_machine.py:427-446 [change_state]; the lock is not released when the lookup raises *)
Definition change_state (m : SM) (new : Val) : SM * out bool :=
  if sm_locked m then (m, Blocked)
  else match accepts (sm_cur m) new with
       | Raise e => (mkSM (sm_cur m) (sm_mission m) true, Exc e)
       | Ok true => (mkSM new (sm_mission m) false, Done true)
       | Ok false => (mkSM (VS Failed) (sm_mission m) false, Done false)
       end.
(** state_machine.py:401-425 [set_next_mission] *)
Definition set_next_mission (m : SM) (mi : option Mission) : SM * out unit :=
  if sm_locked m then (m, Blocked) else (mkSM (sm_cur m) mi false, Done tt).
(** state_machine.py:453-477 [transition] (its result is None) *)
Definition transition (bound : bool) (man : Man) (x : Meas) (m : SM) : SM * out unit :=
  match propose bound man x (sm_cur m) (sm_mission m) with
  | Raise e => (m, Exc e)
  | Ok nxt => if val_eqb (sm_cur m) (VS nxt) then (m, Done tt)
              else let '(m', o) := change_state m (VS nxt) in
                   (m', match o with Done _ => Done tt | Exc e => Exc e | Blocked => Blocked end)
  end.

(** ** Threads.  Every shared read, write, acquire and release is one step; [lk] is the lock, with the thread that took it (the
    lock itself only knows whether it is taken: no step asks who). *)
Inductive Call := CChange (v : Val) | CMission (mi : option Mission) | CTransition (man : Man) (x : Meas).
Inductive Ret := RBool (b : bool) | RNone | RExc (e : exn).
(** program counters; the flag says whether change_state was called from transition *)
Inductive PC :=
| Idle
| ChAcq (v : Val) (tr : bool) | ChChk (v : Val) (tr : bool) | ChWr (v : Val) (b tr : bool) | ChRel (b tr : bool)
| MsAcq (mi : option Mission) | MsWr (mi : option Mission) | MsRel
| TrMis (man : Man) (x : Meas) (cur : Val) | TrDec (man : Man) (x : Meas) (cur : Val) (mi : option Mission).
Record Thread := mkTh { th_pc : PC; th_todo : list Call; th_rets : list Ret }.
Record Shared := mkSh { sh_cur : Val; sh_mis : option Mission; sh_lock : option nat }.
Definition ret_change (b tr : bool) : Ret := if tr then RNone else RBool b.
(** one step of thread [i]: new shared state, new thread, and what the step commits (a write to the shared state) if anything *)
Inductive Commit := KChange (v : Val) (tr b : bool) | KMission (mi : option Mission).
Inductive tstep (bound : bool) (i : nat) : Shared -> Thread -> option Commit -> Shared -> Thread -> Prop :=
(* call: change_state / set_next_mission / transition, which first reads the current state (473) *)
| s_call_ch : forall s v r l, tstep bound i s (mkTh Idle (CChange v :: r) l) None s (mkTh (ChAcq v false) r l)
| s_call_ms : forall s mi r l, tstep bound i s (mkTh Idle (CMission mi :: r) l) None s (mkTh (MsAcq mi) r l)
| s_call_tr : forall s man x r l, tstep bound i s (mkTh Idle (CTransition man x :: r) l) None s (mkTh (TrMis man x (sh_cur s)) r l)
(* transition: read the mission (474), decide (475-476) *)
| s_tr_mis : forall s man x c r l, tstep bound i s (mkTh (TrMis man x c) r l) None s (mkTh (TrDec man x c (sh_mis s)) r l)
| s_tr_exc : forall s man x c mi e r l, propose bound man x c mi = Raise e ->
    tstep bound i s (mkTh (TrDec man x c mi) r l) None s (mkTh Idle r (l ++ [RExc e]))
| s_tr_same : forall s man x c mi n r l, propose bound man x c mi = Ok n -> val_eqb c (VS n) = true ->
    tstep bound i s (mkTh (TrDec man x c mi) r l) None s (mkTh Idle r (l ++ [RNone]))
| s_tr_go : forall s man x c mi n r l, propose bound man x c mi = Ok n -> val_eqb c (VS n) = false ->
    tstep bound i s (mkTh (TrDec man x c mi) r l) None s (mkTh (ChAcq (VS n) true) r l)
(* change_state: acquire (435), look up (438), write (439-443), release and return (445-446) *)
| s_ch_acq : forall c mi v tr r l, tstep bound i (mkSh c mi None) (mkTh (ChAcq v tr) r l) None (mkSh c mi (Some i)) (mkTh (ChChk v tr) r l)
| s_ch_chk : forall s v tr b r l, accepts (sh_cur s) v = Ok b -> tstep bound i s (mkTh (ChChk v tr) r l) None s (mkTh (ChWr v b tr) r l)
| s_ch_exc : forall s v tr e r l, accepts (sh_cur s) v = Raise e -> tstep bound i s (mkTh (ChChk v tr) r l) None s (mkTh Idle r (l ++ [RExc e]))
| s_ch_wr : forall c mi k v b tr r l, tstep bound i (mkSh c mi k) (mkTh (ChWr v b tr) r l) (Some (KChange v tr b))
    (mkSh (if b then v else VS Failed) mi k) (mkTh (ChRel b tr) r l)
| s_ch_rel : forall c mi k b tr r l, tstep bound i (mkSh c mi k) (mkTh (ChRel b tr) r l) None (mkSh c mi None) (mkTh Idle r (l ++ [ret_change b tr]))
(* set_next_mission: acquire (418), write (420-423), release (425) *)
| s_ms_acq : forall c mi m r l, tstep bound i (mkSh c mi None) (mkTh (MsAcq m) r l) None (mkSh c mi (Some i)) (mkTh (MsWr m) r l)
| s_ms_wr : forall c mi k m r l, tstep bound i (mkSh c mi k) (mkTh (MsWr m) r l) (Some (KMission m)) (mkSh c m k) (mkTh MsRel r l)
| s_ms_rel : forall c mi k r l, tstep bound i (mkSh c mi k) (mkTh MsRel r l) None (mkSh c mi None) (mkTh Idle r (l ++ [RNone])).
(** any number of threads; an execution and the list of its commits *)
Definition Threads := nat -> Thread.
Definition tset (ts : Threads) (i : nat) (t : Thread) : Threads := fun j => if Nat.eqb j i then t else ts j.
Inductive exec (bound : bool) : Shared -> Threads -> list (nat * Commit) -> Shared -> Threads -> Prop :=
| e_refl : forall s ts, exec bound s ts [] s ts
| e_step : forall s ts log s1 ts1 i k s2 t2, exec bound s ts log s1 ts1 -> tstep bound i s1 (ts1 i) k s2 t2 ->
    exec bound s ts (log ++ match k with Some k => [(i, k)] | None => [] end) s2 (tset ts1 i t2).
(** threads about to run the given programs *)
Definition start (progs : nat -> list Call) : Threads := fun i => mkTh Idle (progs i) [].
