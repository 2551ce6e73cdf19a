# Design

Formal model, in Rocq (Coq 8.16.1), of the attitude determination and control software in `/repo`
(oresat-adcs-software).  The code is never executed: the tie between model and code is the citation on every
definition (file and line range) and the reading behind it.

## Shape of the development (`rocq/theories`)

| layer | files | content |
|---|---|---|
| numbers | `Num.v`, `Flt.v` | class `Num T` of the operations the code applies to numbers, with the instance `R` (exact reals) and the instance `b64` (IEEE-754 binary64, round to nearest even, from Flocq's `BinarySingleNaN`) |
| vectors | `Vec.v`, `Mat6.v` | 3-vectors, quaternions (4-vectors), 3x3 and 6x6 matrices as records |
| model | `M_*.v` | one Gallina definition per Python function, branch by branch, generic in `Num` where the code is algebraic |
| specifications | `S_*.v` | small independent definitions used in statements (calendar, rotation, dipole, automaton, ...) |
| proofs | `P_*.v` | lemmas |
| properties | `Props_*.v` | the `Theorem`s, `Print Assumptions` under each, and the `Example`s (`Cnn_ex`) showing on concrete non-trivial data that the hypotheses can be met |

Conventions

* **Exceptions are values.**  A Python function that can raise returns `res A := Ok a | Raise e`.
* **Exact reals vs binary64.**  A statement about algebra (rotations, conservation, covariance) is proved for the model
  instantiated at `R`: it says what the formulas compute before rounding.  Where rounding, signed zeros, infinities or NaN
  decide the answer (saturation, distribute, hysteresis, torque clamp, loop counters) the *same* definition is
  instantiated at `b64` and the theorem is about every binary64 value.
* Division by zero over `R`: Coq's `x / 0` is a total function.  Every theorem either assumes the divisor non-zero, proves
  that it is, or the model has an explicit error/`None` branch.
* `np.max`, `min`, `max` are folds with Python's / numpy's own comparison order, so the NaN behaviour is the code's.
* `is` comparisons with freshly built arrays (`r3 is np.zeros(3)`) are `false`: object identity with a new object.
* numpy evaluation order of sums of more than two products is taken left to right; fused multiply-add and pairwise summation
  are not modelled.  Only the `b64` theorems are sensitive to this and none of them involves such a sum unless stated.
* Properties the code violates are not weakened: the property describes the exact envelope, the positive theorem covers the
  part that holds and a theorem named `..._refuted` (or an explicit equation exhibiting the error) the rest.

## Trusted base

* Coq's kernel, and the reading of `/repo` recorded in the comments of `M_*.v`.
* Axioms: only the four of the Coq standard library listed in the table at the end of this file.  No axiom, parameter or
  hypothesis is added, and no kernel check is switched off.
* Contracts of foreign code.  The following library routines are not modelled from their source; the model uses the
  mathematical function they document:
  * `np.sin`, `np.cos`, `np.exp`, `np.arccos`, ... are the real functions.  Theorems about binary64 never go through one of them.
  * `np.linalg.norm` is the root of the left-to-right sum of squares; `np.linalg.inv` and `np.linalg.pinv` are the adjugate inverse and
    `A^T (A A^T)^{-1}`, on matrices proved to have the rank this needs.
  * `np.linalg.det` of the 4x4 matrix in `flae` is the Laplace expansion; `scipy.optimize.newton` is the Newton iteration with
    the `maxiter` and `rtol` the code passes.
  * `scipy.signal.cont2discrete(..., 'zoh')` is the matrix exponential of the block matrix, which here is a finite sum since `A` is nilpotent.
  * `scipy.linalg.solve_discrete_are` returns some symmetric positive semidefinite solution of the Riccati equation when it returns.
  * `datetime`/`timedelta` are integers of microseconds on the proleptic Gregorian calendar.
  * Python's `threading.Lock` gives mutual exclusion; nothing else is assumed of the scheduler.
  * Basilisk: `scalar`-first input converted by the code, MRP/EP and wheel conventions as the code's own comments state.  Basilisk
    itself is not modelled; C80 and C81 state in the theorem which equation of motion they are about.

## What is modelled, file by file

| file in `/repo` | model | left out |
|---|---|---|
| `src/oresat_adcs/functions/vector.py` | `M_vector.v`, all | nothing |
| `src/oresat_adcs/functions/quaternion.py` | `M_quaternion.v`, all | nothing |
| `src/oresat_adcs/functions/frame.py` | `M_frame.v`, all | nothing |
| `src/oresat_adcs/functions/attitude_estimation.py` | `M_att.v`: `triad_algorithm`, `flae` | the commented-out closed form of the quartic |
| `src/oresat_adcs/classes/jday.py` | `M_jday.v` | `schedule_leap_second`, `is_leap_second` (bodies are `pass`); reading the system time |
| `src/oresat_adcs/configuration/structure.py` | `M_struct.v` | JSON/printing; `SensitiveInstrument` only through the angles and constants the controller reads |
| `src/oresat_adcs/configuration/environment.py` | `M_env.v` | printing |
| `src/oresat_adcs/configuration/state_machine.py` | `M_fsm.v`, sequentially and as threads | `FAILED`, `SLEEP` and `MANUAL` transition methods return their own state and appear as such in `propose`; printing |
| `src/oresat_adcs/classes/dynamics.py` | `M_dyn.v`, `M_integ.v` | the unused class `SatelliteState(np.ndarray)` is represented by the fields `DynamicState` also has |
| `src/oresat_adcs/classes/sensor.py` | `M_sensor.v` | the random generator: noise is an arbitrary stream |
| `src/oresat_adcs/classes/observers.py` | `M_obs.v`, `M_mgr.v` (`KalmanFilters`) | `estimate_attitude` (body is `pass`) |
| `src/oresat_adcs/classes/controller.py` | `M_ctrl.v` | commented-out code |
| `src/oresat_adcs/system/manager_class.py`, `simulator.py` | `M_mgr.v`, `M_integ.v` | nothing |
| `src/oresat_adcs/system/manager.py` | none | the whole file: it constructs `observers.DummyFilter`, which does not exist |
| `simulation/Quaternions.py` | `M_sim.v`, all | nothing |
| `simulation/FlightSoftwareModule.py` | `M_sim.v`, `M_fsw.v` | `Reset`, logging, message subscription; commented-out controllers |
| `simulation/ADCS_Discrete_State_Space_Calculator.py` | `M_lqr.v`, `M_lqi.v` | printing of the eigenvalues |
| `simulation/ADCS_Simulation_Basilisk.py` | `M_sim.v`, `M_lqr.v`: nadir quaternion, wheel geometry, gain set-up | plotting and the Basilisk scenario script |
| `simulation/Stability Analysis.py` | `axis_margins` (`M_margins.v`), with and without delay | `ct.margin` itself (its results are specified); `ct.pade` and the product of transfer functions are the library's, modelled by their published formulas; the `__main__` block |
| `examples/`, `tests/` | `helper.make_satellite` geometry only, as the concrete data of examples | the rest |

Not modelled anywhere: numpy broadcasting beyond the shapes the code uses, numpy warnings, printing, file/JSON loading, the
operating system, `datetime.now()`, real thread timing (threads are arbitrary interleavings of the lock operations).

## Properties: model and proof plan

| id | modelled | proof |
|---|---|---|
| C01 | `product`, `conjugate` over any ring instance | ring identities over R |
| C02 | `sandwich`, `sandwich_opp` | ring identities with the unit-norm hypothesis; composition law |
| C03 | `error_quat` | ring, unit norm |
| C04 | `axisangle_to_quat`, `R_axis_angle`, composition in `acquire_target` | trigonometric half-angle identities, `acos`; witness for antipodes |
| C05 | `eulerangle_to_quat` | trigonometric identities, equality with product of three axis rotations |
| C06 | `path_lift`, `metric` | case split on the comparison |
| C07 | `xi`, `cross` as matrices | ring |
| C08 | `_quat2equatorial` for one quaternion with `atan2` defined from the stdlib `atan` | unit norm gives 1-xn^2 = sum of squares; evaluation at a witness |
| C09 | `saturation` on lists over `Num` | R: induction on the list; b64: Flocq relative-error lemmas; witnesses by `vm_compute` |
| C10 | `normalize`, `pointing_vector` on lists / 3-vectors | induction, `sqrt` lemmas |
| C11 | `inertial_to_ecef`, `theta_gmst` | trigonometric identities, floor lemmas |
| C12 | `lvlh_to_inertial` | vector algebra on normalised vectors |
| C13 | `ecef_to_lla`, `geodetic_to_ECEF` | case analysis; equator/pole evaluation; fixed-point lemma for the correction step |
| C14 | `triad_algorithm` | polynomial identities from b = R r; square root cancellation |
| C15 | `flae` up to the Newton solve, which is an arbitrary returned `lam` | determinant identity by ring; Gaussian elimination steps |
| C16, C17 | `Clock` record and `tick` | invariant + refinement to a day-number calendar; induction over tick lists |
| C18, C19 | `Clock.is_after`, `is_minutes_away` | case analysis, calendar spec |
| C20 | `julian_date` (both) on integers/rationals | Z arithmetic, induction over days / periodicity |
| C21, C22 | `JClock` as an integer number of microseconds | Z arithmetic, induction |
| C23 | both `gmst` chains | from C20 |
| C24 | `Magnetorquer.actuate/getCurrent` per type | algebra with `sqrt`, explicit constants |
| C25 | `distribute` over `Num` | R: fold-min lemmas; b64: `vm_compute` witnesses |
| C26, C27 | wheels, `A^T (A A^T)^{-1}` pseudo-inverse | 3x3 inverse algebra, least-norm via orthogonality |
| C28 | `Satellite` inertia | sums of rank-one matrices |
| C29, C30 | `Wall`, box | case analysis on signs |
| C31 | `relative_vel` | ring; witness for the sign error |
| C32 | `atmo_density` | monotonicity of exp, bounds on exp from the series |
| C33 | gravity | Coquelicot derivatives of the zonal potential |
| C34 | `magnetic_field` | algebra |
| C35 | `SRP_info` | trigonometric identities, inequalities |
| C36, C37 | `Integrator.update`, `integrate` over an arbitrary vector field; loop counters in binary64 | induction on steps; exact binary64 run of the loop |
| C38 | `RK4_step` | exactness on polynomials of degree at most 4, commutation with linear invariants |
| C39 | shared clock across the four stages | induction |
| C40 | `vector_field` | Coquelicot `is_derive` of energy and momentum along solutions |
| C41 | environment forces | algebra |
| C42-C44 | sensors with an arbitrary noise stream | case analysis, induction |
| C45-C47, C72 | position filter | Joseph form, invariants over call lists, least squares |
| C48-C51 | attitude filter | same, plus trigonometric matrix identities and series |
| C52, C73 | `MayhewTrigger`, `bang_cmd` | case analysis, induction over inputs |
| C53 | magnetorquer allocation | projection algebra |
| C54, C74 | `tracking` and closed loop | Lyapunov derivative with Coquelicot |
| C55, C75 | `allowable_zone` | derivative of the barrier; error propagation |
| C56 | BBQ roll | quaternion algebra |
| C57-C60, C63 | state machine, sequential | invariants over histories |
| C61, C62 | state machine, threads | linearisation by induction on schedules; counterexample schedule |
| C64-C66, C77 | manager, pair of filters | case analysis, induction |
| C67-C71 | `simulation/Quaternions.py`, controller pieces | algebra; binary64 case analysis |
| C76 | `point_and_stare` | quaternion algebra with C04 |
| C78 | `ecef_to_lla` | Taylor remainders by polynomial bounds over the whole range of radii |
| C79 | discrete linear-quadratic gain | completion of squares over arbitrary input sequences; Lyapunov argument |
| C80, C81 | closed loop with the code's error signal | eigenvalue-free instability argument, phase-plane energy, Picard iteration for existence |
| C82 | wheel torque map and clamp | 4x3 algebra |
| C83 | nadir quaternion | orthonormal frame algebra |
| C84 | `UpdateState` and every history of it | induction on the message list |
| C85 | closed loop of `tracking` with the rigid body: exponential convergence | Lyapunov function with a cross term, first-exit argument, Picard iteration for the example |
| C86 | orbital part of `vector_field` | derivatives of energy, momentum and eccentricity vector; line integrals for the absence of a potential |
| C87 | `vector.py` `normalize` in binary64: all roundings, worst case for every array | `normalize`, `normalize3`, `normalizeq` at `FNum` |
| C88 | symmetries of the gain; `Stability Analysis.py` `axis_margins` | `M_margins.axis_margins`; `M_lqr.get_gain_matrix` |
| C89 | accuracy of `RK4_step` + `update` on a steady spin: exact axis, lag of order (W dt)^5 per step | `M_integ.update`, `M_dyn.vector_field` |
| C90 | `flae` with `scipy.optimize.newton` as documented, real arithmetic | `M_att.flae`, `newton`, `kernel_quat` against Wahba's loss in `S_wahba` |
| C91 | `propagate` and `measurement` of the attitude filter, covariance part, real arithmetic | `M_obs.af_propagate`, `af_measurement`, `af_Q`, `phi_11`, `phi_12` against the steady state in `S_steady` |
| C92 | `add_integrators`, `get_gain_matrix` with `use_integrator`, `quaternion_controller` with a 3x9 gain | `M_lqi.add_integrators`, `cont2discrete9`, `get_gain_matrix_int`, `controller_with` against `S_lqi` |
| C93 | `vector_field`, RK4 `update`/`updates` with renormalisation, rotational part | `M_dyn.vector_field`, `M_integ.updates` against `S_rk.rigid_motion` |
| C94 | `ecef_to_lla`, `SatelliteState`, `vector_field`, `RK4_step`, `update`, `integrate` as partial functions | `M_frame.ecef_to_lla`, `M_dyn.make_state`, `M_dyn.vector_field`, `M_integ.update`, `M_integ.updates` |
| C95 | `axis_margins` with `delay_s`, `ct.pade`, product of transfer functions | `M_margins.axis_margins`, `M_margins.axis_tf`, `M_margins.pade`, `M_margins.pmul` |
| C96 | `vector_field`, RK4 `update`/`updates`, translational part | `M_dyn.vector_field`, `M_integ.updates` against `S_orb.orbit_motion` |
| C97 | the motions that `vector_field` prescribes, RK4 `update`/`updates` | `S_orb.orbit_motion`, `S_rk.rigid_motion`, `M_integ.updates` |
| C98 | `product`, `conjugate`, `sandwich`, `sandwich_opp`, `error_quat` in binary64 | `M_quaternion` at `Flt.FNum` |
| C99 | `DiscretePositionKalman.state_transition`, `propagate` (estimate) | `M_obs.A_discrete`, `pf_propagate` against `S_orb.orbit_motion` |
| C100 | `vector_field`, `RK4_step`, `SatelliteState`, `JulianClock.tick`, `update` over whole runs | `M_dyn.vector_field`, `M_integ.updates` against `S_orb.orbit_motion`, `S_run.trapped` |
| C101 | `axis_margins` with `delay_s`, `get_gain_matrix` | `M_margins.axis_tf`, `M_lqr.get_gain_matrix` against `S_tdelay.late_motion` |
| C102 | `vector_field`, `RK4_step`, `SatelliteState`, `update` over whole runs, all parts of the state vector | `M_dyn.vector_field`, `M_integ.updates` against `S_rk.rigid_motion`, `S_orb.orbit_motion` |
| C103 | `DiscreteAttitudeStartrackerKalman.propagate`, `measurement`, `reset` over unending runs | `M_obs.af_propagate`, `af_measurement` against the true attitude `Props_est.about` |
| C104 | `measurement`, `reset`, `error_quat` after any history | `M_obs.af_run`, `af_measurement` against `Props_sign.half_cos` |
| C105 | `detumble`, `actuator_commands` inside the equations of motion, for all time | `M_ctrl.detumble_torque`, `mag_moment_cmd`, `M_dyn.derivative` against limits and integrals of Coquelicot |
| C106 | `no_q_bbq_roll`, `check` | `M_ctrl.roll_error`, `mag_check` against `Props_roll.aim_body`, `aim_sky`, `off` |
| C107 | `tracking` and `actuator_commands` called once per period, the command held in the equations of motion | `M_ctrl.tracking`, `M_dyn.derivative` against `Props_samp.held` |
| C108 | `tracking` in the equations of motion with an arbitrary external torque | `M_ctrl.tracking`, `M_dyn.derivative` against `Props_dist.obeys_under` |
| C109 | `allowable_zone` inside `tracking`, in the equations of motion with an external torque | `M_ctrl.allowable_zone`, `M_ctrl.tracking`, `M_dyn.derivative` against `Props_zone.allowed`, `gap`, `zone_obeys` |
| C110 | `desaturate` with `track_and_desaturate` and `induce_bbq_roll_attitude`, in the equations of motion | `M_ctrl.desaturate`, `M_ctrl.track_and_desaturate`, `M_ctrl.induce_bbq_roll_attitude`, `M_dyn.derivative` against `Props_dump.follows`, `steady`, `held`, `pattern` |
| C111 | The closed loops of tracking, standby roll with dumping, and detumbling as differential equations: existence and uniqueness | `M_ctrl.tracking`, `M_ctrl.track_and_desaturate`, `M_ctrl.desaturate_torque`, `M_ctrl.detumble_torque`, `M_dyn.derivative` against `Props_loop.ready`, `P_loop3.swings`, `P_loop4.same` |
| C112 | JClock in binary64: total_seconds, julian_date, centuries_elapsed, gmst_seconds, float remainder, np.radians, theta_gmst | `M_jdayf.*` against `Props_jdayf.sidereal`, `S_cal.day_number` and the real `M_jday` |
| C113 | DiscretePositionKalman.propagate and update in alternation: F_continuous, state_transition, gain, covariance | `M_obs.pf_propagate`, `M_obs.pf_update`, `M_obs.pf_init` against `Props_gps.ahead_p/ahead_v/settling`, `S_orb.orbit_motion` |
| C114 | tracking on a given state that is not the true one; actuator_commands; the rotational equations of motion | `M_ctrl.tracking`, `M_ctrl.whl_actuator_commands`, `M_dyn.derivative` against `Props_meas.obeys_given/astray/biased` |
| C115 | the attitude filter's cycle: propagate, star-tracker measurement, reset | `M_obs.af_propagate`, `M_obs.af_measurement`, `M_obs.af_reset` against `Props_tri.missed/at_rest/turning` |
| C116 | the feedback loop: `tracking`, held wheel command, equations of motion, `af_propagate`, `af_measurement` | `M_ctrl.tracking`, `M_dyn.derivative`, `M_obs.af_propagate`, `M_obs.af_measurement` against `S_whole.whole_loop`, `Props_whole.astir`, `Props_tri.missed` |
| C117 | `ManagerDaemonInterface.propagate`, `KalmanFilters.output/update/propagate`, the attitude filter | `M_mgr.mgr_propagate`, `M_mgr.kf_output`, `M_mgr.kf_propagate`, `M_obs.af_*` against `Props_half.given`, `Props_tri.turning` |
| C118 | the attitude filter between two star-tracker readings, `ManagerDaemonInterface.propagate` with calls of any duration | `M_obs.af_propagate/af_measurement`, `M_integ.integrate`, `M_mgr.mgr_propagate` against `P_mul5.turning_fast`, `Props_tri.missed`, `Props_half.given` |
| C119 | `MagneticController.detumble` with `distribute` and `actuate` in the loop | `M_ctrl.detumble`, `M_struct.distribute/sys_actuate`, `M_dyn.derivative` against `Props_wired.wired_at`, `has_negative` |
| C120 | `Clock.tick` in binary64 for every step | `M_jday.tick` at `b64` (`ticks (repeat dt n)`) against `P_jday.clock_minute`, `Props_clockf` |
| C121 | bang-bang detumbling as wired | `M_ctrl.detumble` with `mc_bang = true`, `distribute`, `sys_actuate` and `M_dyn.derivative` against the energy of a compass needle, `P_bang`, `Props_bang` |
| C122 | momentum dumping as wired | `M_ctrl.desaturate`, `distribute`, `sys_actuate` and `M_dyn.derivative` against the square of the excess wheel momentum, `Props_dumpw` |
| C123 | parking attitude under a rate bias | `M_ctrl.tracking`, the trigger and `M_dyn.derivative` against the balance of the bias (`parting`), limits of attitude and wheels' momentum, `P_park`, `Props_park` |
| C124 | point_and_stare in closed loop | `M_ctrl.point_and_stare`, `acquire_target`, `tracking`, the trigger and `M_dyn.derivative` against the cosine of the angle to the target (`aim`), `P_stare`, `Props_stare` |
| C125 | SPINDOWN to SLEEP in closed loop with the body | `M_fsm.transition`, `M_mgr.mission_input`, `sys_actuate` and `M_dyn.derivative` as one hybrid loop (`cycle`), `Props_asleep` |
| C126 | modes without a wheel command, in closed loop | `M_mgr.mission_input`, `sys_actuate` and `M_dyn.derivative` as a hybrid loop (`idle_cycle`), `Props_runaway` |
| C127 | start and end of a mission | `M_jday.tick`, `is_after` and `M_fsm.transition` composed (`clk`, `polled`, `sm_at`), `Props_sched` |
| C128 | daemon and satellite in POINT, biased gyro | `M_mgr.mgr_propagate` with `M_dyn.derivative` as a hybrid loop (`stare_cycle`), `Props_parkd` |
| C129 | detumble with the moment held over a period | `M_ctrl.detumble_torque`, `mag_moment_cmd`, `M_dyn.derivative` as a hybrid motion (`kept_moment`), `Props_hdet` |
| C130 | trigger memory over histories of calls | `M_mgr.mission_input`, `sensor_input`, `kf_propagate`, `M_ctrl.tracking` (`does`, `heard`), `Props_memory` |
| C131 | POINT with held commands | `M_ctrl.point_and_stare`, `tracking`, `M_dyn.derivative` (`held_stare`), `P_hstare`, `Props_hstare` |
| C132 | POINT with held commands on estimated states, and the whole daemon | `M_mgr.mgr_propagate`, `M_ctrl.point_and_stare`, `tracking`, `M_dyn.derivative` (`held_told`, `point_cycle`), `Props_hest`, `Props_hestd` |
| C133 | limits of the actuators over every history | `M_mgr.mission_commands`, `sensor_input`, `M_struct.rw_accelerations`, `distribute`, `Props_limits` (`ops`, `torques_ok`, `amps_ok`) |
| C134 | detumbling on an estimated rate | `M_ctrl.detumble_torque`, `mag_moment_cmd`, `M_dyn.derivative`, `Props_dest` (`detumbled_told`, `told_within`), `Props_dhest` (`kept_told`) |
| C135 | how fast the satellite can turn | `M_mgr.mission_commands`, `sensor_input`, `M_struct.rw_accelerations`, `M_dyn.derivative`, `Props_limits.ops`, `Props_agile` (`any_cycle`, `grip`, `aim`) |
| C136 | modes that never unload the wheels | `M_mgr.mission_commands`, `sensor_input`, `M_struct.sys_actuate`, `M_dyn.derivative`, `Props_windup` (`no_torquers`, `undriven_cycle`, `flywheel`) |
| C137 | rates under saturated wheels | `M_ctrl.tracking`, `whl_actuator_commands`, `M_struct.rw_accelerations`, `M_vector.saturation`, `M_dyn.derivative`, `Props_sated` (`obeys_limited`, `tracker`, `spin2`) |
| C138 | wheel torque that suffices for slews | `M_ctrl.whl_new`, `tracking`, `whl_actuator_commands`, `M_struct.rw_distribute`, `rw_accelerations`, `M_dyn.derivative`, `Props_strong` (`spread`, `top_rate`, `needed`) |
| C139 | finitely many trigger flips from any spin | `M_ctrl.trig_step`, `tracking`, `whl_actuator_commands`, `M_dyn.derivative`, `Props_global` (`leg`, `slew`, `effort`) |

The `note` of each claim in `MANIFEST.json` says what the theorems leave out and which defects of the code they exhibit.


## Axioms, theorem by theorem

`Print Assumptions` stands under every theorem.  Letters: **F** `ClassicalDedekindReals.sig_forall_dec`, **N**
`ClassicalDedekindReals.sig_not_dec`, **E** `FunctionalExtensionality.functional_extensionality_dep`, **C** `Classical_Prop.classic`.
All four are in the Coq 8.16.1 standard library; F, N and E come with `Reals`, C with the classical part that Coquelicot and Flocq use.

| assumptions | theorems |
|---|---|
| closed under the global context | C09_saturation_empty C16_minute_determines C57_connected C57_exits C57_history C57_sleep C57_spindown C57_step C58_bbq_point_refuted C63_other |
| EF | C20_julian_agree C21_close C21_errors C21_monotone C21_order_free C21_short_ticks_lost C21_sum C21_whole_microseconds C22_order C22_shift C22_sync C23_microseconds_refuted C23_midnight C38_constant_jerk C38_cubic C38_linear |
| EFN | C01_product_algebra C01_product_unique C02_sandwich_rigid C02_sandwich_scale C03_error_quat C04_axisangle C05_euler C06_path_lift C07_xi_cross C09_saturation C09_saturation_idem C103_turning_refuted C104_away_refuted C104_flight C104_signed C104_toward C106_check C106_iff C106_rate C10_normalize C10_normalize_shapes C10_pointing_vector C110_sign_refuted C119_power C11_ecef_rotation C121_beyond C121_needle C127_jclock C127_jclock_begins C127_late C127_never_early C127_never_refuted C127_punctual C127_year_refuted C12_lvlh C12_lvlh_parallel_refuted C134_bias_refuted C13_lla_fixpoint C14_degenerate_divisor C14_triad C15_charpoly C15_eigenvector C15_error_free C15_gain C15_zero_pivot_refuted C16_divisor_exact C16_history C16_tick C17_constant_step C17_dt7_refuted C17_freeze C18_chronological_refuted C18_componentwise C18_sound C19_false_inside_refuted C19_feb_refuted C19_setup_instant C19_sound C19_true_when_past_refuted C20_constructors C23_gmst_agree C23_rate C23_theta_range C24_odd_increasing C24_rod_fold_refuted C24_roundtrip C25_limit_refuted C25_negative_refuted C25_positive C26_exact C26_least_norm C26_limited C26_pinv_contract C27_axes C27_pyramid C28_composition C28_positive_definite C28_products_refuted C28_symmetric C29_area C29_forces C29_srp_formula C29_torque_refuted C30_area C30_cop C30_drag C30_torque_cube_axis C30_torque_refuted C31_relative_vel_refuted C32_domain C32_raises_unbound C34_dipole C34_scaling C35_shadow C35_sun_direction C35_to_sun C37_count C37_forever C41_drag C41_magnetic C41_solar C41_solar_backwards_refuted C41_sum C42_default_size C42_noiseless C42_order C42_true_value C43_bias C43_quiet C43_reading C44_not_unit_refuted C44_star C46_stale_refuted C47_drag_sign C47_propagate C48_covariance C48_measurement_shrinks C48_negative_step_refuted C49_agreement C49_half_correction C49_half_forever C49_measurement C50_covariance C50_equations C50_error_equation C50_rigid C50_rotation C51_decomposition C51_exact_iff C51_norm C51_norm_refuted C51_propagate C52_band C52_constant C52_one_refuted C52_output C52_spacing C52_step C52_zero_width C53_commands C53_detumble C53_sign_refuted C53_torque C55_nadir C55_nadir_refuted C56_jclock_refuted C56_pole C56_rate C56_unit C58_accepted C58_bound C59_bound C59_raises C59_rules C59_stuck C60_alternates C60_unsafe_for_ever C61_complete C61_linearisable C61_mutex C61_no_deadlock C61_terminates C62_commits C62_failed_refuted C62_race_refuted C62_uninterrupted C63_dead C63_dead_threads C63_released C63_wedge_refuted C65_brake_phase C65_never_grows C65_null_phase C65_rest C65_settles C66_counts C66_first C66_forever C66_raises C67_error C67_product C68_body_axes_refuted C68_sequence C68_to_axis C69_sign_refuted C69_speed C69_untouched C69_zero C70_hysteresis C71_hemi C71_refuted C71_undone C73_deadband C73_insensitive C76_rate C77_drift_refuted C77_twice C79_errors C79_exists C79_gain C79_total C80_rate C82_applied C82_convert C82_direction_refuted C82_sim C88_principal_axes C88_symmetry C90_flae_converges C90_flae_optimal C90_no_convergence_refuted C90_root C91_converges C91_cycle_converges C91_from_start C91_pessimistic C91_runs C92_controller C92_errors C92_exists C92_gain C92_offset C92_rejects C92_usable_refuted C94_field_domain C94_field_raises C95_axes C95_half_sample C99_end C99_invariants C99_spiral |
| CEFN | C04_antipode_refuted C04_pointing C08_inverse_refuted C08_never_raises C08_scalar_last C09_bound_b64_refuted C09_nan_unsaturated C09_saturation_b64 C100_completes C100_flight C100_forces C101_critical C101_design C101_stable C101_unstable C101_verdict C102_flight C102_followed C103_from_start C103_rest C105_fixed_refuted C105_periodic C105_turning C106_upside_down_refuted C107_long_period_refuted C107_rest C107_sampled C108_disturbed C108_offset_refuted C109_keeps_out C109_right_angle_refuted C109_sampled_refuted C110_bbq C110_dumps C110_fixed_refuted C110_null_refuted C110_tracks C111_bbq C111_detumble C111_standby C111_tracking C112_any_instant C112_frame C112_julian C112_microseconds_refuted C112_sidereal C113_altitude_refuted C113_converges C113_design C113_orbit C114_alone C114_bias_refuted C114_measured C114_rest C115_all_axes C115_from_start C115_slow C115_slow_start C116_runs C116_whole C117_finds_bias_refuted C117_half C117_rest C117_runs C117_stuck C118_daemon C118_filter C118_filter_start C118_no_duration_refuted C118_rest C118_runs C118_short C119_spinup_refuted C119_stretch C120_calendar C120_divisors C120_drift_refuted C120_frozen C120_total C120_total_exact C121_compass C121_slow C121_stuck_refuted C122_power C122_spinup_refuted C122_stretch C123_parks C123_settles C124_memory_refuted C124_points C125_asleep C125_rest_refuted C126_held C126_quiet_refuted C128_parked C128_points_refuted C129_alias_refuted C129_held C129_runs C130_left C130_memory C130_opposite_refuted C131_free C131_long_period_refuted C131_points C132_daemon C132_points C132_runs C133_current_refuted C133_currents C133_spindown_refuted C133_wheels C134_fixed C134_held C134_turning C135_angle C135_sharp C135_turns C136_hold_refuted C136_kept C136_windup C137_capped C137_decays C137_rate C137_sharp C138_arrives C138_recovers C138_unsaturated C139_arrives C139_flips C13_lla_equator C13_lla_pole C13_lla_symmetry C13_lla_zero C13_not_inverse_refuted C14_degenerate_refuted C15_identity_nan_refuted C16_binary64 C24_rod_nan_refuted C25_negzero_refuted C32_boundaries C32_jump_450_refuted C32_positive_decreasing C33_high_fidelity C33_j2_part C33_low_fidelity C33_not_gradient_refuted C35_shadow_inside C36_constant_rate C36_never_zero C36_unit_always C36_unit_attitude C37_count_b64 C37_simulator_b64 C38_mode C38_wheels C39_clock C39_simulator C39_stale C40_attitude_norm C40_energy C40_momentum_constant C40_momentum_rate C41_gravity_gradient C43_integrated C45_covariance C45_from_start C45_update_definite C46_agreement C46_minimum_variance C46_state_object C47_jacobian C47_sign_refuted C51_error_bound C52_binary64 C52_nan_start C53_desaturate C54_cancels C54_lyapunov C55_increase_refuted C55_law C55_potential C55_quiet C64_bbq C64_detumble C64_hold C64_last C64_point C64_point_stale_refuted C64_rest C66_sensor C67_zero C68_angles C68_assert_refuted C68_axis_angle C69_bounded C69_short C70_step C72_steps_refuted C72_zero_steps C74_energy C74_sign_refuted C75_attribute_error C75_index_error C75_total C76_behind_refuted C76_points C76_rate_refuted C76_rotated_twice C78_lla_accurate C79_zoh C80_flow C80_lqr_unstable C80_sign_refuted C80_unstable C81_long_way C81_motion C83_nadir C83_scale C84_missing C84_once C84_runs C84_update C85_converges C85_rest C86_energy C86_high_fidelity C86_kepler C86_no_potential_refuted C86_potential C87_any_order C87_normalize C87_normalize_quaternion C87_normalize_vector C87_range_refuted C88_decoupled C88_long_way C89_satellite C89_simulated C89_truth C90_optimum_exists C91_noise C92_unstable C92_zoh C93_converges C93_order_four C94_coordinates C94_outside C94_run C94_run_time C94_step C95_margins C96_converges C96_two_body C97_orbit C97_rotation C97_rotation_simulated C98_associative C98_associative_refuted C98_coordinates C98_normalized C98_product C98_round_trip C98_self_error C99_accuracy |
