(** * Model of observers.py [KalmanFilters] and of system/manager_class.py *)
From Coq Require Import Reals ZArith List Bool.
From Verif Require Import Num Vec Mat6 M_vector M_quaternion M_struct M_dyn M_integ M_obs M_ctrl M_fsm.
Import ListNotations.
Local Open Scope R_scope.

(** ** observers.py:339-399 [KalmanFilters].  Its constructor cannot run against the classes of this repository (it calls
    DynamicalSystem.measurement without a state and DiscretePositionKalman with three arguments: TypeError), so the model starts from an
    object holding the two filters.  [kf_last] is [last_w], unset until [output] has been called. *)
Record KF := mkKF { kf_att : AttF; kf_pos : PosF; kf_last : option v3; kf_gyro_dt : R; kf_gps_dt : R }.
(** observers.py:357-372 [output]; [x] is what [truth_model.measurement(noisy=True)] returned.  [state[3] -= b] makes [last_w] the rate
    with the bias already removed. *)
Definition kf_output (x : CState) (f : KF) : KF * CState :=
  let w := sub3 (v_rate (cs_v x)) (a_b (kf_att f)) in
  (mkKF (kf_att f) (kf_pos f) (Some w) (kf_gyro_dt f) (kf_gps_dt f),
   mkCS (mkSV (u1 (p_x (kf_pos f))) (u2 (p_x (kf_pos f))) (a_q (kf_att f)) w (v_whl (cs_v x))) (cs_mag x)).
(** observers.py:374-381 [update]: the attitude filter is not reached when the position filter raises *)
Definition kf_update (h : store) (x v : v3) (q : quat) (f : KF) : KF * option exn :=
  let '(p, e) := pf_update h x v (kf_pos f) in
  match e with
  | Some e => (mkKF (kf_att f) p (kf_last f) (kf_gyro_dt f) (kf_gps_dt f), Some e)
  | None => match af_measurement q (kf_att f) with
            | Ok a => (mkKF a p (kf_last f) (kf_gyro_dt f) (kf_gps_dt f), None)
            | Raise e => (mkKF (kf_att f) p (kf_last f) (kf_gyro_dt f) (kf_gps_dt f), Some e)
            end
  end.
(** observers.py:383-399 [propagate].  [model] says whether the position filter has the attribute [model] whose clock and matrices the
    second loop refreshes; DiscretePositionKalman has none (the assignment is commented out), so the code is [model = false]. *)
Definition kf_propagate (model : bool) (fuel : nat) (duration : R) (f : KF) : option (res KF) :=
  match kf_last f with
  | None => Some (Raise AttributeError)
  | Some w =>
      match integrate fuel (fun a => Ok (af_propagate w (kf_gyro_dt f) a)) (kf_gyro_dt f) duration (kf_att f) with
      | None => None
      | Some (Raise e) => Some (Raise e)
      | Some (Ok a) =>
          match integrate fuel (fun p => let p' := pf_propagate (kf_gps_dt f) p in if model then Ok p' else Raise AttributeError) (kf_gps_dt f) duration (kf_pos f) with
          | None => None
          | Some (Raise e) => Some (Raise e)
          | Some (Ok p) => Some (Ok (mkKF a p (kf_last f) (kf_gyro_dt f) (kf_gps_dt f)))
          end
      end
  end.

(** ** system/manager_class.py:5-134 [ManagerDaemonInterface] *)
Record Mgr := mkMgr { g_filter : KF; g_mag : MagCtl; g_whl : WhlCtl; g_mag_cmd : list R; g_rw_cmd : list R }.
Definition zeros (n : nat) : list R := repeat 0 n.
Definition set_cmds (m : Mgr) (mag : list R) (rw : list R) : Mgr := mkMgr (g_filter m) (g_mag m) (g_whl m) mag rw.
(** np.dot of two one-dimensional arrays *)
Definition np_dot (a b : list R) : res R :=
  if Nat.eqb (length a) (length b) then Ok (fold_left Rplus (zip_with Rmult a b) 0) else Raise ValueError.
(** manager_class.py:58-69: the wheel command of SPINDOWN *)
Definition null_dir : list R := [-0.5; 0.5; -0.5; 0.5].
Definition MULT : R := K_BBQ * 250.
Definition spindown_cmd (whl : list R) : res (list R) :=
  rbind (np_dot whl null_dir) (fun d =>
  let cmd := map (fun n => - d * n) null_dir in
  if Rltb (norml cmd) 0.00001 then
    if Rltb (norml whl) 0.01 then Ok (zeros 4) else Ok (map (fun x => - x * MULT) whl)
  else Ok cmd).
(** manager_class.py:25-75 [mission_input], after [model_state = self.filter.output()] returned [x].  Mission data: id, boresight, target.
    The result is the object (as far as it was changed) and the exception.  [magnetorquers.actuate] is [sys_actuate]. *)
Definition mission_commands (clock : AClock) (x : CState) (id : Z) (boresight target : v3) (m : Mgr) : Mgr * option exn :=
  let is := fun s => Z.eqb id (st_value s) in
  if (is Sleep || is Failed)%bool then (set_cmds m (zeros 3) (zeros 4), None)
  else if is Detumble then
    match detumble (g_mag m) x with
    | Ok (c, cur) => (mkMgr (g_filter m) c (g_whl m) cur (zeros 4), None)
    | Raise e => (m, Some e)
    end
  else if is Point then
    match point_and_stare (g_whl m) x boresight target with
    | Ok (w, a) => (mkMgr (g_filter m) (g_mag m) w (zeros 3) a, None)
    | Raise e => (set_cmds m (zeros 3) (g_rw_cmd m), Some e)
    end
  else if is Bbq then
    match desaturate (g_mag m) x (zeros 4) with
    | Raise e => (m, Some e)
    | Ok (c, cur) =>
        let m1 := mkMgr (g_filter m) c (g_whl m) cur (g_rw_cmd m) in
        match rbind (sys_actuate (mc_torquers c) cur) (fun mom => induce_bbq_roll_attitude (g_whl m) clock x mom) with
        | Ok (w, a) => (mkMgr (g_filter m) c w cur a, None)
        | Raise e => (m1, Some e)
        end
    end
  else if is Spindown then
    match spindown_cmd (v_whl (cs_v x)) with
    | Ok a => (set_cmds m (zeros 3) a, None)
    | Raise e => (set_cmds m (zeros 3) (g_rw_cmd m), Some e)
    end
  else (m, None).
Definition mission_input (clock : AClock) (meas : CState) (id : Z) (boresight target : v3) (m : Mgr) : Mgr * option exn :=
  let '(f, x) := kf_output meas (g_filter m) in
  mission_commands clock x id boresight target (mkMgr f (g_mag m) (g_whl m) (g_mag_cmd m) (g_rw_cmd m)).
(** manager_class.py:77-90 [sensor_input] *)
Definition sensor_input (h : store) (data : option (v3 * v3 * quat)) (m : Mgr) : Mgr * option exn :=
  match data with
  | None => (m, None)
  | Some (x, v, q) => let '(f, e) := kf_update h x v q (g_filter m) in (mkMgr f (g_mag m) (g_whl m) (g_mag_cmd m) (g_rw_cmd m), e)
  end.
(** manager_class.py:107-134 [propagate]; [meas] is what the sensors return in mission_input.  The final [output] only reads. *)
Definition mgr_propagate (model : bool) (fuel : nat) (h : store) (clock : AClock) (meas : CState) (duration : R) (id : Z) (boresight target : v3)
    (data : option (v3 * v3 * quat)) (m : Mgr) : option (res Mgr) :=
  match sensor_input h data m with
  | (_, Some e) => Some (Raise e)
  | (m, None) =>
      match mission_input clock meas id boresight target m with
      | (_, Some e) => Some (Raise e)
      | (m, None) =>
          match kf_propagate model fuel duration (g_filter m) with
          | None => None
          | Some (Raise e) => Some (Raise e)
          | Some (Ok f) => Some (Ok (mkMgr f (g_mag m) (g_whl m) (g_mag_cmd m) (g_rw_cmd m)))
          end
      end
  end.
