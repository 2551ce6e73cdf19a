(** * Model of src/oresat_adcs/classes/sensor.py *)
From Coq Require Import Reals ZArith List Bool Arith.
From Verif Require Import Num Vec M_vector M_quaternion M_jday M_frame M_struct M_env M_dyn.
Import ListNotations.
Local Open Scope R_scope.

(** sensor.py:66-260: the classes; [Base] is [Sensor] itself *)
Inductive SensorKind := Base | GPS_pos | GPS_vel | StarTracker | GyroS | Wheel_vel | Magnetometer | SunSensor.

(** sensor.py:135-160 [Gyro]: the mutable fields and the variances *)
Record Gyro := mkG { g_bias : v3; g_last : v3; g_coef : R; g_arw_var : R; g_rrw_var : R }.
(** sensor.py:147-160 [__init__]; [b0] is the draw of the initial bias *)
Definition gyro_init (arw_std rrw_std : R) (b0 : v3) : Gyro := mkG b0 zero3 0 (arw_std ^ 2) (rrw_std ^ 2 / 12).
(** sensor.py:157-169 [propagate]; [n] is the normal draw *)
Definition gyro_propagate (dt : R) (n : v3) (g : Gyro) : Gyro :=
  mkG (add3 (g_bias g) (scale3 (sqrt dt) n)) (g_bias g) (sqrt (g_arw_var g / dt + g_rrw_var g * dt)) (g_arw_var g) (g_rrw_var g).

(** sensor.py:23-40: noise is zeros of the configured size, or the drawn array (as long as the size) *)
Definition noise_base (size : nat) (noisy : bool) (draw : list R) : res (list R) :=
  Ok (if noisy then draw else repeat 0 size).
(** sensor.py:119-121 [StarTracker.generate_noise]: np.zeros(-1) raises ValueError *)
Definition noise_star (size : nat) (noisy : bool) (draw : list R) : res (list R) :=
  match size with
  | O => Raise ValueError
  | S k => Ok (0 :: (if noisy then draw else repeat 0 k))
  end.
(** sensor.py:171-177 [Gyro.generate_noise]; zeros of [self.size] = 3 when not noisy *)
Definition noise_gyro (g : Gyro) (noisy : bool) (draw : v3) : list R :=
  if noisy then l3 (add3 (scale3 0.5 (add3 (g_bias g) (g_last g))) (scale3 (g_coef g) draw)) else repeat 0 3.

(** sensor.py:43-50 and the overriding [true_value] methods *)
Definition true_value (k : SensorKind) (size : nat) (h : store) (s : SatState) : res (list R) :=
  match k with
  | Base => Ok (repeat 0 size)
  | GPS_pos => Ok (l3 (v_pos (sv s)))
  | GPS_vel => Ok (l3 (v_vel (sv s)))
  | StarTracker => Ok (lq (v_att (sv s)))
  | GyroS => Ok (l3 (v_rate (sv s)))
  | Wheel_vel => Ok (v_whl (sv s))
  | Magnetometer => Ok (l3 (sandwich (v_att (sv s)) (magnetic_field (c_r_ecef s) (c_length s) (c_ecef s))))
  | SunSensor => rbind (clk_julian (h (clk s))) (fun jd => Ok (l3 (sandwich (v_att (sv s)) (snd (SRP_info jd (v_pos (sv s)))))))
  end.
(** one sensor object: its kind and size; the gyro object is the one the integrator propagates *)
Record Sensor := mkSensor { sn_kind : SensorKind; sn_size : nat }.
(** the random draws one call may use: an array for most sensors, a triple for the gyro *)
Record Draw := mkDraw { dr_arr : list R; dr_gyro : v3 }.
Definition generate_noise (sn : Sensor) (g : Gyro) (noisy : bool) (d : Draw) : res (list R) :=
  match sn_kind sn with
  | StarTracker => noise_star (sn_size sn) noisy (dr_arr d)
  | GyroS => Ok (noise_gyro g noisy (dr_gyro d))
  | _ => noise_base (sn_size sn) noisy (dr_arr d)
  end.
(** sensor.py:52-62 [measurement] *)
Definition measurement (sn : Sensor) (g : Gyro) (h : store) (s : SatState) (noisy : bool) (d : Draw) : res (list R) :=
  rbind (true_value (sn_kind sn) (sn_size sn) h s) (fun t =>
  rbind (generate_noise sn g noisy d) (fun n => np_add t n)).
(** dynamics.py:143-157 [Dynamics.measurement]: a list comprehension over the sensors *)
Fixpoint measure_all (sns : list Sensor) (g : Gyro) (h : store) (s : SatState) (noisy : bool) (ds : list Draw) : res (list (list R)) :=
  match sns with
  | [] => Ok []
  | sn :: r => let d := hd (mkDraw [] zero3) ds in
      rbind (measurement sn g h s noisy d) (fun m => rbind (measure_all r g h s noisy (tl ds)) (fun l => Ok (m :: l)))
  end.
