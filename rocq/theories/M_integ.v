(** * Model of Integrator (src/oresat_adcs/classes/dynamics.py:329-400) and system/simulator.py *)
From Coq Require Import Reals ZArith List Bool Arith.
From Verif Require Import Num Flt Vec M_vector M_quaternion M_jday M_frame M_struct M_env M_dyn M_sensor.
Import ListNotations.
Local Open Scope R_scope.

(** dynamics.py:329-340: the integrator object together with what it can reach: the clock store, the gyro at sensors[3] and
    the number of random draws taken from the stream so far *)
Record World := mkWorld { w_state : SatState; w_store : store; w_gyro : Gyro; w_draws : nat }.
Definition set_att (v : SVec) (q : quat) : SVec := mkSV (v_pos v) (v_vel v) q (v_rate v) (v_whl v).

Section Integrator.
(** the model's vector field (given the clock store and the parameters), the random stream, the flag and the step *)
Context (f : store -> SatState -> res SVec) (stream : nat -> v3) (simulator : bool) (dt : R).
(** dynamics.py:364-382 [update] *)
Definition update (w : World) : res World :=
  rbind (RK4_sat (w_store w) (f (w_store w)) dt (w_state w)) (fun next =>
  let v := if simulator then set_att (sv next) (normalizeq (v_att (sv next))) else sv next in
  rbind (clk_tick dt (w_store w (clk next))) (fun c =>
  let h := set_clk (w_store w) (clk next) c in
  rbind (make_state h (clk next) v) (fun st =>
  if simulator then Ok (mkWorld st h (gyro_propagate dt (stream (w_draws w)) (w_gyro w)) (S (w_draws w)))
  else Ok (mkWorld st h (w_gyro w) (w_draws w))))).
(** n updates in a row *)
Fixpoint updates (n : nat) (w : World) : res World :=
  match n with O => Ok w | S n => rbind (update w) (updates n) end.
End Integrator.

Section Loop.
Context {T : Type} `{NT : Num T}.
(** dynamics.py:393: the loop condition *)
Definition loop_cond (duration t : T) : bool := ((t <? duration) || (nabs (t - duration) <? ndec 1 1000))%num.
(** dynamics.py:392-400 [integrate]: [while cond: update(); t += dt].  [None] when [fuel] rounds were not enough. *)
Fixpoint int_loop {W} (fuel : nat) (step : W -> res W) (dt duration t : T) (w : W) : option (res W) :=
  match fuel with
  | O => None
  | S fuel =>
      if loop_cond duration t then
        match step w with
        | Ok w' => int_loop fuel step dt duration (t + dt)%num w'
        | Raise e => Some (Raise e)
        end
      else Some (Ok w)
  end.
Definition integrate {W} (fuel : nat) (step : W -> res W) (dt duration : T) (w : W) : option (res W) :=
  int_loop fuel step dt duration dt w.
End Loop.

(** system/simulator.py:10-14: the constructor's dt argument is overwritten *)
Definition simulator_dt (dt : R) : R := 0.05.
(** system/simulator.py:16-23 [input], with the integrator built by the constructor *)
Definition sim_input (hi_fi : bool) (sat : Satellite) (mt : list (Torquer R)) (stream : nat -> v3) (dt : R)
    (fuel : nat) (duration : R) (cur accl : list R) (w : World) : option (res World) :=
  let d := simulator_dt dt in
  integrate fuel (update (fun h s => vector_field hi_fi sat mt h s cur accl) stream true d) d duration w.
(** system/simulator.py:25-34 [output] *)
Definition sim_output (sns : list Sensor) (w : World) (noisy : bool) (ds : list Draw) : res (list (list R)) :=
  measure_all sns (w_gyro w) (w_store w) (w_state w) noisy ds.
