{
 "claims": [
  {
   "property": "C01",
   "status": "proved",
   "theorems": [
    "C01_product_algebra",
    "C01_product_unique"
   ],
   "note": ""
  },
  {
   "property": "C02",
   "status": "proved",
   "theorems": [
    "C02_sandwich_rigid",
    "C02_sandwich_scale"
   ],
   "note": ""
  },
  {
   "property": "C03",
   "status": "proved",
   "theorems": [
    "C03_error_quat"
   ],
   "note": ""
  },
  {
   "property": "C04",
   "status": "proved",
   "theorems": [
    "C04_axisangle",
    "C04_pointing",
    "C04_antipode_refuted"
   ],
   "note": "Holds for non-opposite directions; REFUTED for exact antipodes (zero quaternion), theorem C04_antipode_refuted."
  },
  {
   "property": "C05",
   "status": "proved",
   "theorems": [
    "C05_euler"
   ],
   "note": ""
  },
  {
   "property": "C06",
   "status": "proved",
   "theorems": [
    "C06_path_lift"
   ],
   "note": ""
  },
  {
   "property": "C07",
   "status": "proved",
   "theorems": [
    "C07_xi_cross"
   ],
   "note": ""
  },
  {
   "property": "C08",
   "status": "proved",
   "theorems": [
    "C08_never_raises",
    "C08_scalar_last",
    "C08_inverse_refuted"
   ],
   "note": "Range/no-raise proved; the function is shown not to invert eulerangle_to_quat as stored (C08_inverse_refuted) and to negate the declination on the reordered quaternion (C08_scalar_last)."
  },
  {
   "property": "C09",
   "status": "proved",
   "theorems": [
    "C09_saturation",
    "C09_saturation_idem",
    "C09_saturation_empty",
    "C09_saturation_b64",
    "C09_bound_b64_refuted",
    "C09_nan_unsaturated"
   ],
   "note": "Exact-arithmetic law proved; in binary64 the limit is exceeded by at most one ulp (C09_saturation_b64), and this does happen (C09_bound_b64_refuted); NaN input passes through (C09_nan_unsaturated)."
  },
  {
   "property": "C10",
   "status": "proved",
   "theorems": [
    "C10_normalize",
    "C10_normalize_shapes",
    "C10_pointing_vector"
   ],
   "note": ""
  },
  {
   "property": "C11",
   "status": "proved",
   "theorems": [
    "C11_ecef_rotation"
   ],
   "note": ""
  },
  {
   "property": "C12",
   "status": "proved",
   "theorems": [
    "C12_lvlh",
    "C12_lvlh_parallel_refuted"
   ],
   "note": "parallel position and velocity: exact degenerate result proved (C12_lvlh_parallel_refuted)."
  },
  {
   "property": "C13",
   "status": "proved",
   "theorems": [
    "C13_lla_zero",
    "C13_lla_symmetry",
    "C13_lla_equator",
    "C13_lla_pole",
    "C13_lla_fixpoint",
    "C13_not_inverse_refuted"
   ],
   "note": "accuracy of the initial guess away from equator and poles is not stated; what is stated (symmetry, exactness on equator/poles, fixpoint of the correction, raising, non-inverse witness) is proved."
  },
  {
   "property": "C14",
   "status": "proved",
   "theorems": [
    "C14_triad",
    "C14_degenerate_refuted",
    "C14_degenerate_divisor"
   ],
   "note": "degenerate inputs: zero divisor over R in every case; binary64 witnesses give NaN quaternions."
  },
  {
   "property": "C15",
   "status": "proved",
   "theorems": [
    "C15_charpoly",
    "C15_gain",
    "C15_eigenvector",
    "C15_error_free",
    "C15_zero_pivot_refuted",
    "C15_identity_nan_refuted"
   ],
   "note": "proved over R for any number of measurements; binary64 witness for the identity attitude."
  },
  {
   "property": "C16",
   "status": "proved",
   "theorems": [
    "C16_tick",
    "C16_minute_determines",
    "C16_history",
    "C16_divisor_exact",
    "C16_binary64"
   ],
   "note": "Exact reals for every dt and history; binary64 exact minute periodicity for dt = 1, 0.5, 0.1, 0.05, 0.01."
  },
  {
   "property": "C17",
   "status": "proved",
   "theorems": [
    "C17_freeze",
    "C17_constant_step",
    "C17_dt7_refuted"
   ],
   "note": "Proved for every history of non-negative ticks; dt=7 witness for every legal start."
  },
  {
   "property": "C18",
   "status": "proved",
   "theorems": [
    "C18_componentwise",
    "C18_sound",
    "C18_chronological_refuted"
   ],
   "note": "The chronological reading is refuted by a witness; the field-wise reading is proved exactly."
  },
  {
   "property": "C19",
   "status": "proved",
   "theorems": [
    "C19_setup_instant",
    "C19_sound",
    "C19_true_when_past_refuted",
    "C19_false_inside_refuted",
    "C19_feb_refuted"
   ],
   "note": "Set-up instant exact; three witnesses where the answer is chronologically wrong."
  },
  {
   "property": "C20",
   "status": "proved",
   "theorems": [
    "C20_julian_agree",
    "C20_constructors"
   ],
   "note": "Equality holds if and only if the date is in 1900-03-01..2100-02-28 (all years >= 1, microsecond resolution). Exact reals."
  },
  {
   "property": "C21",
   "status": "proved",
   "theorems": [
    "C21_sum",
    "C21_close",
    "C21_whole_microseconds",
    "C21_order_free",
    "C21_short_ticks_lost",
    "C21_monotone",
    "C21_errors"
   ],
   "note": ""
  },
  {
   "property": "C22",
   "status": "proved",
   "theorems": [
    "C22_order",
    "C22_shift",
    "C22_sync"
   ],
   "note": ""
  },
  {
   "property": "C23",
   "status": "proved",
   "theorems": [
    "C23_gmst_agree",
    "C23_theta_range",
    "C23_rate",
    "C23_midnight",
    "C23_microseconds_refuted"
   ],
   "note": "Exact reals; also the midnight step and the microsecond defect of JClock."
  },
  {
   "property": "C24",
   "status": "proved",
   "theorems": [
    "C24_roundtrip",
    "C24_odd_increasing",
    "C24_rod_fold_refuted",
    "C24_rod_nan_refuted"
   ],
   "note": "Exact-real round trips both ways; binary64 NaN beyond 3482/2750 (bound 3481/2750 plus rounding slack)."
  },
  {
   "property": "C25",
   "status": "proved",
   "theorems": [
    "C25_positive",
    "C25_negative_refuted",
    "C25_limit_refuted",
    "C25_negzero_refuted"
   ],
   "note": "Non-negative commands: full law. Negative component: reversal proved for all such commands, limit breach by witness. Negative zero: NaN for all finite-limit torquers in binary64."
  },
  {
   "property": "C26",
   "status": "proved",
   "theorems": [
    "C26_exact",
    "C26_least_norm",
    "C26_limited",
    "C26_pinv_contract"
   ],
   "note": "numpy.linalg.pinv enters by contract A^T(AA^T)^-1; the Moore-Penrose conditions are proved for it (C26_pinv_contract)."
  },
  {
   "property": "C27",
   "status": "proved",
   "theorems": [
    "C27_pyramid",
    "C27_axes"
   ],
   "note": ""
  },
  {
   "property": "C28",
   "status": "proved",
   "theorems": [
    "C28_symmetric",
    "C28_positive_definite",
    "C28_composition",
    "C28_products_refuted"
   ],
   "note": "Positive definiteness fails with products (reduced=True): C28_products_refuted."
  },
  {
   "property": "C29",
   "status": "proved",
   "theorems": [
    "C29_area",
    "C29_forces",
    "C29_torque_refuted",
    "C29_srp_formula"
   ],
   "note": "The torque law of the documentation (centroid x F) is refuted: torque carries the area twice."
  },
  {
   "property": "C30",
   "status": "proved",
   "theorems": [
    "C30_area",
    "C30_drag",
    "C30_cop",
    "C30_torque_refuted",
    "C30_torque_cube_axis"
   ],
   "note": "Centre of pressure proved inside the box on the flow side; drag torque closed form shows it is not zero."
  },
  {
   "property": "C31",
   "status": "proved",
   "theorems": [
    "C31_relative_vel_refuted"
   ],
   "note": "Exact description of the deviation; the intended relation v - w x r is refuted off the plane x = 0."
  },
  {
   "property": "C32",
   "status": "proved",
   "theorems": [
    "C32_domain",
    "C32_raises_unbound",
    "C32_positive_decreasing",
    "C32_boundaries",
    "C32_jump_450_refuted"
   ],
   "note": "Domain, positivity, strict decrease and the boundary limits (4 per cent, tighter than stated) proved; the 450 km jump is C32_jump_450_refuted. Exact arithmetic with the real exponential."
  },
  {
   "property": "C33",
   "status": "proved",
   "theorems": [
    "C33_low_fidelity",
    "C33_high_fidelity",
    "C33_j2_part",
    "C33_not_gradient_refuted"
   ],
   "note": "Low fidelity, z component and J2 part proved; the full gradient claim is refuted with the exact error."
  },
  {
   "property": "C34",
   "status": "proved",
   "theorems": [
    "C34_dipole",
    "C34_scaling"
   ],
   "note": "Exact arithmetic."
  },
  {
   "property": "C35",
   "status": "proved",
   "theorems": [
    "C35_sun_direction",
    "C35_to_sun",
    "C35_shadow",
    "C35_shadow_inside"
   ],
   "note": "Inside the Earth the NaN comparison is proved on binary64; the rest in exact arithmetic. Clock.julian_date needs arguments, so only JClock states reach this code."
  },
  {
   "property": "C36",
   "status": "proved",
   "theorems": [
    "C36_unit_attitude",
    "C36_unit_always",
    "C36_never_zero",
    "C36_constant_rate"
   ],
   "note": "Update with the simulator flag: unit attitude unless the RK4 sum is exactly zero, other components untouched, any number of steps. The code's own vector field cannot reach zero while the stage rates stay below one radian per step; at constant rate never, with the exact norm factor."
  },
  {
   "property": "C37",
   "status": "proved",
   "theorems": [
    "C37_count",
    "C37_forever",
    "C37_count_b64",
    "C37_simulator_b64"
   ],
   "note": "Exact step count for every positive step and duration, divergence for a step of zero or less, and the binary64 count (general step at least 1/128 s; the 0.05 s step up to 100000 steps)."
  },
  {
   "property": "C38",
   "status": "proved",
   "theorems": [
    "C38_linear",
    "C38_constant_jerk",
    "C38_cubic",
    "C38_mode",
    "C38_wheels"
   ],
   "note": "RK4 is the degree-4 Taylor polynomial on every linear system of any dimension, exact on constant jerk and on cubic derivatives, with the error bound on linear modes; wheel speeds exact after any number of steps of the real vector field."
  },
  {
   "property": "C39",
   "status": "proved",
   "theorems": [
    "C39_clock",
    "C39_stale",
    "C39_simulator"
   ],
   "note": "Clock advanced by one tick per step through the shared reference; other clocks untouched; the caller's earlier state has stale caches unless the rotation matrix is the same; SimulatorDaemonInterface always steps 0.05 s."
  },
  {
   "property": "C40",
   "status": "proved",
   "theorems": [
    "C40_attitude_norm",
    "C40_momentum_rate",
    "C40_momentum_constant",
    "C40_energy"
   ],
   "note": "Along every differentiable solution of the code's vector field on an interval: attitude norm, inertial momentum and spin energy. The example is an explicit circular equatorial orbit solving the equations."
  },
  {
   "property": "C41",
   "status": "proved",
   "theorems": [
    "C41_sum",
    "C41_magnetic",
    "C41_gravity_gradient",
    "C41_drag",
    "C41_solar",
    "C41_solar_backwards_refuted"
   ],
   "note": "Perpendicularity of magnetic and gravity-gradient torques, exact drag force and its sign, no solar force in shadow. Refuted part: the sun direction is not rotated into the body frame, so some attitude makes sunlight pull a black satellite sunward."
  },
  {
   "property": "C42",
   "status": "proved",
   "theorems": [
    "C42_true_value",
    "C42_noiseless",
    "C42_default_size",
    "C42_order"
   ],
   "note": "All eight sensor classes; success condition is exact, including numpy broadcasting of size 1 and of a single wheel."
  },
  {
   "property": "C43",
   "status": "proved",
   "theorems": [
    "C43_bias",
    "C43_quiet",
    "C43_reading",
    "C43_integrated"
   ],
   "note": "Bias after any sequence of propagations, in and out of the integrator."
  },
  {
   "property": "C44",
   "status": "proved",
   "theorems": [
    "C44_star",
    "C44_not_unit_refuted"
   ],
   "note": "Exact condition for the noisy reading to have unit norm; refuted for every noise vector not opposed to the vector part."
  },
  {
   "property": "C45",
   "status": "proved",
   "theorems": [
    "C45_covariance",
    "C45_from_start",
    "C45_update_definite"
   ],
   "note": "Any sequence of update and propagate calls from the constructor (or from any symmetric PSD covariance). Propagation at an estimated position of exactly zero divides by zero in the code; excluded by the hypothesis pf_defined. Real arithmetic."
  },
  {
   "property": "C46",
   "status": "proved",
   "theorems": [
    "C46_minimum_variance",
    "C46_agreement",
    "C46_state_object",
    "C46_stale_refuted"
   ],
   "note": "Gain characterised by K(P+R)=P; Joseph form, both bounds, optimality over every linear gain. C46_stale_refuted: propagate leaves the state object behind."
  },
  {
   "property": "C47",
   "status": "proved",
   "theorems": [
    "C47_jacobian",
    "C47_sign_refuted",
    "C47_drag_sign",
    "C47_propagate"
   ],
   "note": "Jacobian by derivatives of gravity_accel; the block is its negative at every position and never the Jacobian itself; the drag term has the opposite sign too."
  },
  {
   "property": "C48",
   "status": "proved",
   "theorems": [
    "C48_covariance",
    "C48_measurement_shrinks",
    "C48_negative_step_refuted"
   ],
   "note": "All call sequences with dt >= 0; C48_negative_step_refuted shows the condition is needed. Real arithmetic."
  },
  {
   "property": "C49",
   "status": "proved",
   "theorems": [
    "C49_measurement",
    "C49_agreement",
    "C49_half_correction",
    "C49_half_forever"
   ],
   "note": "Stated for every gain the filter can compute, not only gain I: at least half of the vector error survives each measurement."
  },
  {
   "property": "C50",
   "status": "proved",
   "theorems": [
    "C50_rotation",
    "C50_rigid",
    "C50_equations",
    "C50_error_equation",
    "C50_covariance"
   ],
   "note": "Also the linear error equation and the exact covariance added by a step."
  },
  {
   "property": "C51",
   "status": "proved",
   "theorems": [
    "C51_decomposition",
    "C51_exact_iff",
    "C51_norm",
    "C51_error_bound",
    "C51_norm_refuted",
    "C51_propagate"
   ],
   "note": "Exact iff, exact norm, second-order error bound, refutation of unit norm."
  },
  {
   "property": "C52",
   "status": "proved",
   "theorems": [
    "C52_output",
    "C52_step",
    "C52_band",
    "C52_zero_width",
    "C52_spacing",
    "C52_constant",
    "C52_one_refuted",
    "C52_binary64",
    "C52_nan_start"
   ],
   "note": "C52_one_refuted: the docstring's >= 1 is false at exactly 1. C52_nan_start: built from a NaN the trigger stays NaN; no caller does that."
  },
  {
   "property": "C53",
   "status": "proved",
   "theorems": [
    "C53_torque",
    "C53_commands",
    "C53_detumble",
    "C53_desaturate",
    "C53_sign_refuted"
   ],
   "note": "C53_detumble and C53_desaturate are about the commanded moment before distribute; C53_sign_refuted shows detumble after distribute doing positive work whenever a moment component is negative (see C25)."
  },
  {
   "property": "C54",
   "status": "proved",
   "theorems": [
    "C54_cancels",
    "C54_lyapunov"
   ],
   "note": "Exact real arithmetic; wheels unsaturated and spanning, no instruments or avoidance off. The wheel controller cannot run in the code as it stands (C75); the theorems take the missing sun_vector as a parameter."
  },
  {
   "property": "C55",
   "status": "proved",
   "theorems": [
    "C55_quiet",
    "C55_law",
    "C55_potential",
    "C55_increase_refuted",
    "C55_nadir",
    "C55_nadir_refuted"
   ],
   "note": "C55_increase_refuted: the law is not dissipative for its own potential."
  },
  {
   "property": "C56",
   "status": "proved",
   "theorems": [
    "C56_unit",
    "C56_pole",
    "C56_rate",
    "C56_jclock_refuted"
   ],
   "note": "C56_jclock_refuted: with a JClock the reference is the fixed ecliptic attitude for ever."
  },
  {
   "property": "C57",
   "status": "proved",
   "theorems": [
    "C57_step",
    "C57_history",
    "C57_exits",
    "C57_sleep",
    "C57_spindown",
    "C57_connected"
   ],
   "note": "C57_step is the command rule against an independently written list of moves; C57_history lifts it to all histories; exits, the SPINDOWN/SAFE prerequisites of SLEEP and reachability of every mode follow."
  },
  {
   "property": "C58",
   "status": "proved",
   "theorems": [
    "C58_accepted",
    "C58_bound",
    "C58_bbq_point_refuted"
   ],
   "note": "bound = false is the code (helper calls lose an argument); C58_bound is the intended reading. The refuted theorem shows the table's integer 7."
  },
  {
   "property": "C59",
   "status": "proved",
   "theorems": [
    "C59_rules",
    "C59_raises",
    "C59_stuck",
    "C59_bound"
   ],
   "note": "C59_rules/C59_raises/C59_stuck describe the code; C59_bound the intended reading with a bound receiver."
  },
  {
   "property": "C60",
   "status": "proved",
   "theorems": [
    "C60_unsafe_for_ever",
    "C60_alternates"
   ],
   "note": "C60_unsafe_for_ever is the code; C60_alternates the intended reading."
  },
  {
   "property": "C61",
   "status": "proved",
   "theorems": [
    "C61_linearisable",
    "C61_mutex",
    "C61_no_deadlock",
    "C61_terminates",
    "C61_complete"
   ],
   "note": "Interleaving model, one step per shared access, any number of threads and calls. State arguments only; the wedge with other arguments is C63."
  },
  {
   "property": "C62",
   "status": "proved",
   "theorems": [
    "C62_commits",
    "C62_uninterrupted",
    "C62_race_refuted",
    "C62_failed_refuted"
   ],
   "note": "The two refuted theorems are the races; C62_commits and C62_uninterrupted say what does hold."
  },
  {
   "property": "C63",
   "status": "proved",
   "theorems": [
    "C63_wedge_refuted",
    "C63_dead",
    "C63_dead_threads",
    "C63_other",
    "C63_released"
   ],
   "note": "Sequential and threaded versions."
  },
  {
   "property": "C64",
   "status": "proved",
   "theorems": [
    "C64_rest",
    "C64_detumble",
    "C64_point",
    "C64_point_stale_refuted",
    "C64_bbq",
    "C64_hold",
    "C64_last"
   ],
   "note": "mission_data is (id, boresight, target) with a numeric id. C64_point_stale_refuted: with the environments of the repository point_and_stare raises, so the previous wheel acceleration stays commanded."
  },
  {
   "property": "C65",
   "status": "proved",
   "theorems": [
    "C65_null_phase",
    "C65_brake_phase",
    "C65_rest",
    "C65_settles",
    "C65_never_grows"
   ],
   "note": "Sample-and-hold of the commanded accelerations over h seconds; C65_settles composes it with the state machine's SPINDOWN rule."
  },
  {
   "property": "C66",
   "status": "proved",
   "theorems": [
    "C66_counts",
    "C66_raises",
    "C66_first",
    "C66_forever",
    "C66_sensor"
   ],
   "note": "The constructor of KalmanFilters cannot run against the repository's classes (TypeError); the theorems start from an object holding the two filters. model = false is the code, model = true supposes the missing attribute PosFilter.model."
  },
  {
   "property": "C67",
   "status": "proved",
   "theorems": [
    "C67_product",
    "C67_error",
    "C67_zero"
   ],
   "note": "Over the reals for the algebra; C67_zero over binary64. np.linalg.norm is the square root of the sum of squares."
  },
  {
   "property": "C68",
   "status": "proved",
   "theorems": [
    "C68_axis_angle",
    "C68_angles",
    "C68_to_axis",
    "C68_sequence",
    "C68_body_axes_refuted",
    "C68_assert_refuted"
   ],
   "note": "Over the reals; the docstring's body-axis order is refuted and C68_assert_refuted is a binary64 computation for a particular quaternion. numpy's sin and cos are the real functions."
  },
  {
   "property": "C69",
   "status": "proved",
   "theorems": [
    "C69_bounded",
    "C69_short",
    "C69_untouched",
    "C69_speed",
    "C69_sign_refuted",
    "C69_zero"
   ],
   "note": "C69_bounded and C69_short over binary64, the speed statements over the reals with the torque held for one step. C69_sign_refuted shows the wrong-way torque for every such command."
  },
  {
   "property": "C70",
   "status": "proved",
   "theorems": [
    "C70_hysteresis",
    "C70_step"
   ],
   "note": "Exact: the mode is decided by the last angle outside [30,40]."
  },
  {
   "property": "C71",
   "status": "proved",
   "theorems": [
    "C71_undone",
    "C71_refuted",
    "C71_hemi"
   ],
   "note": "The intended behaviour (the short way round) is refuted; C71_hemi shows what the unused hemi would give."
  },
  {
   "property": "C72",
   "status": "proved",
   "theorems": [
    "C72_zero_steps",
    "C72_steps_refuted"
   ],
   "note": "All covariances; real arithmetic."
  },
  {
   "property": "C73",
   "status": "proved",
   "theorems": [
    "C73_deadband",
    "C73_insensitive"
   ],
   "note": "Real arithmetic."
  },
  {
   "property": "C74",
   "status": "proved",
   "theorems": [
    "C74_energy",
    "C74_sign_refuted"
   ],
   "note": "C74_sign_refuted is the on-reference counterexample for every rate_cmd_dot."
  },
  {
   "property": "C75",
   "status": "proved",
   "theorems": [
    "C75_attribute_error",
    "C75_index_error",
    "C75_total"
   ],
   "note": "wc_sun = None is the code as it is; Some f is the repaired environment."
  },
  {
   "property": "C76",
   "status": "proved",
   "theorems": [
    "C76_points",
    "C76_behind_refuted",
    "C76_rate",
    "C76_rotated_twice",
    "C76_rate_refuted"
   ],
   "note": "The Earth-fixed target's own motion is not in the rate reference; the theorem is for a target fixed in inertial space."
  },
  {
   "property": "C77",
   "status": "proved",
   "theorems": [
    "C77_twice",
    "C77_drift_refuted"
   ],
   "note": "C77_drift_refuted is the consequence for a body at rest."
  },
  {
   "property": "C78",
   "status": "proved",
   "theorems": [
    "C78_lla_accurate"
   ],
   "note": "Real arithmetic: the constants, formulas, branch and error cases of the code, with exact real numbers for floats and the real sine, cosine, arcsine and arccosine. Proved by a third-order expansion of the initial guess (polynomial bound computed and checked in Coq) and a Taylor bound on the correction step."
  },
  {
   "property": "C79",
   "status": "proved",
   "theorems": [
    "C79_exists",
    "C79_total",
    "C79_zoh",
    "C79_gain",
    "C79_errors"
   ],
   "note": "Solver contract in C79_gain: solve_discrete_are returns a symmetric positive semidefinite solution of the Riccati equation (the definition riccati). C79_exists shows that there is exactly one (by value iteration, whose limit it is), C79_total that the gain is therefore the same for every correct solver. cont2discrete is modelled by the exponential series, of which C79_zoh shows that it ends. Exact arithmetic. use_integrator = True is C92."
  },
  {
   "property": "C80",
   "status": "proved",
   "theorems": [
    "C80_rate",
    "C80_sign_refuted",
    "C80_flow",
    "C80_unstable",
    "C80_lqr_unstable"
   ],
   "note": "The kinematics q' = q (w, 0) / 2 is that of Basilisk's qInrtl2Case, which is outside this repository and is assumed. C80_sign_refuted refutes the design model; C80_unstable is about the sampled linearised loop at the target."
  },
  {
   "property": "C81",
   "status": "proved",
   "theorems": [
    "C81_long_way",
    "C81_motion"
   ],
   "note": "Continuous control (no sampling), one axis, no saturation; the torque on the body is the torque asked for (C82). C81_motion proves that the motions spoken of exist."
  },
  {
   "property": "C82",
   "status": "proved",
   "theorems": [
    "C82_convert",
    "C82_sim",
    "C82_applied",
    "C82_direction_refuted"
   ],
   "note": "pinv of a matrix of full row rank is modelled by G' (G G')^-1. C82_direction_refuted: saturation turns the torque."
  },
  {
   "property": "C83",
   "status": "proved",
   "theorems": [
    "C83_nadir",
    "C83_scale"
   ],
   "note": "scipy's Rotation.from_rotvec is modelled by its formula. Exact arithmetic."
  },
  {
   "property": "C84",
   "status": "proved",
   "theorems": [
    "C84_update",
    "C84_missing",
    "C84_runs",
    "C84_once"
   ],
   "note": "Messages are modelled as written or not, with the star tracker's quaternion non-zero. Exact arithmetic. Printing and the exit flag (never set) are left out."
  },
  {
   "property": "C85",
   "status": "proved",
   "theorems": [
    "C85_converges",
    "C85_rest"
   ],
   "note": "The law is applied continuously (obeys: at every moment the wheels get exactly what tracking and actuator_commands command in that state), with no external torque, no wheel saturated and no instrument to keep away from the Sun; the Sun vector is a parameter because state.sun_vector raises as written (C75). C85_converges gives the rate and the basin; C85_rest covers every start from rest; C85_ex shows that such a motion exists."
  },
  {
   "property": "C86",
   "status": "proved",
   "theorems": [
    "C86_energy",
    "C86_high_fidelity",
    "C86_kepler",
    "C86_no_potential_refuted",
    "C86_potential"
   ],
   "note": "About the continuous equation of motion that the code integrates (vector_field at exact reals), not about the truncation error of RK4_step. C86_no_potential_refuted: no function changes along every curve by the work of the high-fidelity acceleration, because the x and y parts of J3 and J4 have the wrong sign (C33)."
  },
  {
   "property": "C87",
   "status": "proved",
   "theorems": [
    "C87_normalize",
    "C87_any_order",
    "C87_normalize_quaternion",
    "C87_normalize_vector",
    "C87_range_refuted"
   ],
   "note": "normalize, normalize3 and normalizeq instantiated at binary64 (Flt.v). C87_normalize: arrays; C87_normalize_quaternion / C87_normalize_vector: the shapes the attitude and pointing code uses; C87_any_order covers numpy's own summation order (dot product in BLAS) under a stated accuracy of the sum; C87_range_refuted shows overflow (zero quaternion) and underflow (unchanged) outside the range."
  },
  {
   "property": "C88",
   "status": "proved",
   "theorems": [
    "C88_symmetry",
    "C88_principal_axes",
    "C88_long_way",
    "C88_decoupled"
   ],
   "note": "C88_symmetry from the uniqueness of the Riccati solution (C79_exists); C88_principal_axes for arbitrary principal axes; C88_decoupled for diagonal inertias (the inertia in the script has small off-diagonal entries and Jyx differs from Jxy in the fourth digit, so it is no body's exact inertia; the analysis is exact for diagonal ones only). ct.margin is external: the margins are specified from the frequency response itself and the theorem says what they are. delay_s (a Pade approximation) is never passed and not modelled. C80 still applies: the error the simulation feeds back has the opposite sign to the design model's."
  },
  {
   "property": "C89",
   "status": "proved",
   "theorems": [
    "C89_truth",
    "C89_simulated",
    "C89_satellite"
   ],
   "note": "C89_truth: every solution of the kinematic equation at constant rate turns the body by W t about n. C89_simulated: N updates turn it by N (W dt - lag) about the same n, with (W dt)^5/3856 <= lag <= (W dt)^5/1904, the same lag for all N, starts and vector fields that keep the rate. C89_satellite instantiates the code's vector_field: principal axis, wheel momentum along it, no external torque, wheels coasting. C89_ex: one real update of a ball in low orbit. The bounds on lag differ by a factor of two; its exact value is atan of a quotient of the Taylor polynomials. Real arithmetic."
  },
  {
   "property": "C90",
   "status": "proved",
   "theorems": [
    "C90_optimum_exists",
    "C90_root",
    "C90_flae_optimal",
    "C90_flae_converges",
    "C90_no_convergence_refuted"
   ],
   "note": "C90_optimum_exists, C90_root, C90_flae_optimal, C90_flae_converges, C90_no_convergence_refuted (six contradictory measurements with a sole optimum and gap 2/15 on which four Newton steps do not suffice). scipy.optimize.newton is modelled as documented (M_att.newton, with its stopping test). The factor 1/v_z^2 - 1 is the price of eliminating without pivoting and of fixing the last component: at v_z = 0 see C15_zero_pivot_refuted. Real arithmetic."
  },
  {
   "property": "C91",
   "status": "proved",
   "theorems": [
    "C91_noise",
    "C91_cycle_converges",
    "C91_converges",
    "C91_runs",
    "C91_from_start",
    "C91_pessimistic"
   ],
   "note": "C91_noise, C91_cycle_converges (the generic two-state recursion), C91_converges, C91_runs (such runs exist for every profile), C91_from_start, C91_pessimistic. Finding: Q12 = -0.5 DRIFT_VAR dt^2 is already the sign of the exact noise, and G = diag(-1, 1) in propagate flips it again. The noise integral is evaluated at zero estimated rate; other axes than the spin axis are not covered by the convergence theorem. Real arithmetic."
  },
  {
   "property": "C92",
   "status": "proved",
   "theorems": [
    "C92_zoh",
    "C92_gain",
    "C92_exists",
    "C92_rejects",
    "C92_offset",
    "C92_unstable",
    "C92_controller",
    "C92_usable_refuted",
    "C92_errors"
   ],
   "note": "Solver contract as in C79. scipy's cont2discrete ignores the shape of C_aug (3x6 beside a 9x9 A_aug). Finding: C92_usable_refuted - a gain with integrators makes quaternion_controller raise ValueError at every call; the integrator states are kept nowhere. C92_offset: the gain in use (without integrators) leaves a steady error for every nonzero constant torque. Exact arithmetic."
  },
  {
   "property": "C93",
   "status": "proved",
   "theorems": [
    "C93_converges",
    "C93_order_four"
   ],
   "note": "Exact arithmetic; the error of binary64 is not included. C89 gives the matching lower bound for a steady spin (lag of the fifth order in each step), so the order is exactly four. The true torque may vary by delta about the constant T0; the rates of convergence for a torque with time-dependent smooth part are not claimed. Existence of the true motion is a hypothesis (rigid_motion), proved in C97 for every start."
  },
  {
   "property": "C94",
   "status": "proved",
   "theorems": [
    "C94_coordinates",
    "C94_field_domain",
    "C94_field_raises",
    "C94_step",
    "C94_run",
    "C94_run_time",
    "C94_outside"
   ],
   "note": "Exact arithmetic: exceptions are those of the Python code on real numbers; overflow to infinity is not covered. The step bound is existential (it depends on the bound of forces and torques of env_bound). The two ranges of distance do not meet: between 6606752 and 6628138 m, and between 6856752 and 6878138 m, whether the altitude is inside the density table depends on the latitude, and C94_field_domain decides by the altitude itself. Finding: with the Clock class (not JulianClock) every vector field evaluation raises TypeError, and outside [250 km, 500 km) the density look-up raises UnboundLocalError (C32)."
  },
  {
   "property": "C95",
   "status": "proved",
   "theorems": [
    "C95_margins",
    "C95_axes",
    "C95_half_sample"
   ],
   "note": "ct.pade and the product of transfer functions belong to python-control; they are modelled by the library's published algorithm (M_margins.pade, pmul), which is part of the trusted base. ct.margin is not modelled: the theorem is about the quantities it is documented to return. Existence of the first crossover and poles on the imaginary axis are proved; that all closed-loop poles are in the left half plane below gm is not claimed."
  },
  {
   "property": "C96",
   "status": "proved",
   "theorems": [
    "C96_converges",
    "C96_two_body"
   ],
   "note": "Exact arithmetic; the error of binary64 is not included. The field is compared with the attraction by a point mass with the program's own constants (environment.py:194-212); the zonal terms of the high-fidelity gravity count as part of delta. The order conditions are verified by expanding the four stages and the true motion in the basis of starting position and velocity, uniformly on the region. Existence of the true orbit is a hypothesis (orbit_motion), proved in C97 for every start with angular momentum. The rotational part is C93."
  },
  {
   "property": "C97",
   "status": "proved",
   "theorems": [
    "C97_orbit",
    "C97_rotation",
    "C97_rotation_simulated"
   ],
   "note": "Discharges the existence hypotheses of C93 and C96: these compare the simulation with any true motion, C97 shows that there is exactly one for every start. Exact arithmetic. Starts without angular momentum fall into the attracting point and are excluded. Existence is proved by Picard iteration on the field cut off outside a box, which conservation of energy and angular momentum (orbit) or a growth bound (rotation) shows is never left. For the rotation the torque is a given function of time, not of the state."
  },
  {
   "property": "C98",
   "status": "proved",
   "theorems": [
    "C98_product",
    "C98_coordinates",
    "C98_round_trip",
    "C98_normalized",
    "C98_self_error",
    "C98_associative",
    "C98_associative_refuted"
   ],
   "note": "The order of operations is that of the expressions in quaternion.py with each numpy operation rounded once (to nearest, ties to even); np.dot of three elements is summed from the left without fused operations. Underflow terms are included; overflow is excluded by the ranges. The docstring's exact associativity is refuted by a concrete triple."
  },
  {
   "property": "C99",
   "status": "proved",
   "theorems": [
    "C99_invariants",
    "C99_spiral",
    "C99_end",
    "C99_accuracy"
   ],
   "note": "Exact arithmetic. The truncated 0.1666 for 1/6 is kept as in the code and enters D. The covariance is C45, C47 and C72. True orbit: two-body motion (S_orb), unique by C97."
  },
  {
   "property": "C100",
   "status": "proved",
   "theorems": [
    "C100_completes",
    "C100_forces",
    "C100_flight"
   ],
   "note": "Exact arithmetic. C96 assumes of a run that it went through and of its forces that they are near the attraction at every state; here both follow: forces are bounded only in the band, near the speed of the orbit and near unit attitudes, and the run is shown to stay there. The longest step is not computed. High-fidelity gravity is covered by C100_completes with its departure from the attraction counted in delta."
  },
  {
   "property": "C101",
   "status": "proved",
   "theorems": [
    "C101_stable",
    "C101_critical",
    "C101_unstable",
    "C101_verdict",
    "C101_design"
   ],
   "note": "The motions considered are the waves, the modes of the delayed equation; that every motion is a sum of them is not modelled. With T w > pi a phase margin, known up to whole turns, says nothing and C101_verdict leaves it out. C101_design uses the solver's contract as C88 does and covers principal axes."
  },
  {
   "property": "C102",
   "status": "proved",
   "theorems": [
    "C102_flight",
    "C102_followed"
   ],
   "note": "Exact arithmetic. Joins C93 (attitude, which assumes the run goes through) with C96 and C100. The torque condition is on states in the band with near-unit attitude only; the longest step and C are not computed."
  },
  {
   "property": "C103",
   "status": "proved",
   "theorems": [
    "C103_rest",
    "C103_from_start",
    "C103_turning_refuted"
   ],
   "note": "The second half is violated: C103_turning_refuted. The cause is the attitude transition of C51, whose identity block lacks the cosine, so that even an exact estimate is propagated wrongly and the bias estimate is pushed about for ever. Convergence (C103_rest, C103_from_start) is local, as the filter is a linearised one; eps, K and rho are not computed. Motions about one axis only."
  },
  {
   "property": "C104",
   "status": "proved",
   "theorems": [
    "C104_signed",
    "C104_toward",
    "C104_away_refuted",
    "C104_flight"
   ],
   "note": "Violated for readings of the opposite sign: C104_away_refuted, C104_flight. The innovation is the vector part of the error quaternion, whose sign the filter does not look at. Exact arithmetic; the angle between attitudes is compared through the square of the product of the quaternions."
  },
  {
   "property": "C105",
   "status": "proved",
   "theorems": [
    "C105_turning",
    "C105_periodic",
    "C105_fixed_refuted"
   ],
   "note": "C105_fixed_refuted: the claim of the docstring needs a field that turns in inertial space. The theorems are about the commanded moment, before distribute (whose sign reversal C25 and C53 describe), and without other torques."
  },
  {
   "property": "C106",
   "status": "proved",
   "theorems": [
    "C106_rate",
    "C106_iff",
    "C106_check",
    "C106_upside_down_refuted"
   ],
   "note": "C106_upside_down_refuted: check returns 0 for a satellite at rest, upside down, and the law leaves it there. C106_iff: for a body that is not symmetric about z (as the shipped one is not) there are states where the distance grows (a field along the error makes the command zero). Commanded moment, before distribute; wheels at rest."
  },
  {
   "property": "C107",
   "status": "proved",
   "theorems": [
    "C107_sampled",
    "C107_rest",
    "C107_long_period_refuted"
   ],
   "note": "C107_long_period_refuted states the growth for every motion, C107_ex and C107_ex2 give motions for every period. The longest period is an explicit function of the bounds (P_samp2) but not a sharp one."
  },
  {
   "property": "C108",
   "status": "proved",
   "theorems": [
    "C108_disturbed",
    "C108_offset_refuted"
   ],
   "note": "C108_offset_refuted: a constant torque leaves a permanent error. Command follows the state continuously (C107 treats held commands), no saturation."
  },
  {
   "property": "C109",
   "status": "proved",
   "theorems": [
    "C109_keeps_out",
    "C109_right_angle_refuted",
    "C109_sampled_refuted"
   ],
   "note": "C109_keeps_out is the avoidance theorem: command follows the state continuously, wheels unsaturated, sun direction fixed in inertial space, rates bounded. C109_right_angle_refuted: a bound of 90 degrees gives alert distance zero. C109_sampled_refuted: with a held command a fast turn crosses the sun."
  },
  {
   "property": "C110",
   "status": "proved",
   "theorems": [
    "C110_tracks",
    "C110_dumps",
    "C110_bbq",
    "C110_fixed_refuted",
    "C110_null_refuted",
    "C110_sign_refuted"
   ],
   "note": "C110_tracks, C110_dumps and C110_bbq are the positive part, for the moment before distribute, with continuous commands, real arithmetic, unsaturated wheels and no watching instruments; the sun vector is a parameter (C75). C110_bbq needs a clock whose absolute time runs: with JClock it stays 0 (C56_jclock_refuted). C110_fixed_refuted, C110_null_refuted, C110_sign_refuted are the limits."
  },
  {
   "property": "C111",
   "status": "proved",
   "theorems": [
    "C111_tracking",
    "C111_standby",
    "C111_bbq",
    "C111_detumble"
   ],
   "note": "Continuous commands, real arithmetic, wheels without a torque limit (rw_limited = false) for existence; uniqueness (P_loop4.loop_unique) also covers limited wheels while they are unsaturated. The trigger is the controller's fixed one, which C85 and C110 show to stay put. Existence for tracking under a disturbance torque (C108) and for the sun-avoidance law (C109) is not shown. For the detumbling law no wheel acceleration is applied."
  },
  {
   "property": "C112",
   "status": "proved",
   "theorems": [
    "C112_sidereal",
    "C112_any_instant",
    "C112_frame",
    "C112_julian",
    "C112_microseconds_refuted"
   ],
   "note": "Covers JClock (the clock the satellite uses), not the older Clock class. The claim that different instants get different Julian dates is false below about 40 microseconds (C112_microseconds_refuted). That gmst_seconds loses the microseconds of the current second is a separate finding (C23_microseconds_refuted). cos and sin of the computed angle are taken exactly in C112_frame."
  },
  {
   "property": "C113",
   "status": "proved",
   "theorems": [
    "C113_converges",
    "C113_orbit",
    "C113_design",
    "C113_altitude_refuted"
   ],
   "note": "The last sentence is false (C113_altitude_refuted): with exact fixes every second, even from an exact start, in every window of 60 s after the first 150 cycles the estimate is at some cycle more than 15 m or more than 2 m/s off, although the fixes are exact and the filter's own figures for a fix are 10 m and 0.52 m/s. The cause is the constant 1.28e-6 in A_discrete in place of mu/|x|^3: about 0.35 m/s^2 are missing at 500 km, twenty times the process noise a_sigma. The rate 0.998 and the factor 500 are bounds, not the exact speed. Exceptions raised by the state object after an update are covered (the filter is already updated then)."
  },
  {
   "property": "C114",
   "status": "proved",
   "theorems": [
    "C114_measured",
    "C114_alone",
    "C114_bias_refuted",
    "C114_rest"
   ],
   "note": "C114_measured (with external torque and a bound on the momentum at all times), C114_alone (no external torque), C114_bias_refuted and C114_rest (that the error goes to zero in spite of a constant gyro bias is false).  Continuous control with unsaturated wheels and no keep-out zone, as in C85 and C108; lam, d0 and K are not computed.  That the estimates are within d is a hypothesis; the filters alone are the subject of C91, C103 and C113."
  },
  {
   "property": "C115",
   "status": "proved",
   "theorems": [
    "C115_slow",
    "C115_slow_start",
    "C115_all_axes",
    "C115_from_start"
   ],
   "note": "C115_slow and C115_slow_start for a slowly turning body (existence of the run included in the second), C115_all_axes and C115_from_start for one at rest.  Extends C103_rest, which is for errors and bias along one axis, exact sensors and no motion.  The r^2 is not slack: C103 shows that a steadily turning body is never followed exactly, because the propagation leaves out the cosine.  A rate that varies within one cycle counts towards d.  Real arithmetic; eps, K and rho are not computed."
  },
  {
   "property": "C116",
   "status": "proved",
   "theorems": [
    "C116_whole",
    "C116_runs"
   ],
   "note": "C116_whole (every run), C116_runs (the run exists from the filter's own start state, with any sequence of sensor errors, and settles).  Local: the starting error must be below eps, which depends on the period and the covariance.  The filter and the controller are composed directly: the gyro reading used to step the filter is the mean over the period (a rate-integrating gyro) and the filter subtracts its bias once.  The wrapper KalmanFilters stores the reading less the bias and the filter subtracts the bias again; that fault is the subject of the manager's own properties and is not part of this loop.  Wheels are unsaturated; real arithmetic; eps, K, rho and the longest period are not computed."
  },
  {
   "property": "C117",
   "status": "proved",
   "theorems": [
    "C117_stuck",
    "C117_half",
    "C117_rest",
    "C117_runs",
    "C117_finds_bias_refuted"
   ],
   "note": "Violated as one would want it: C117_finds_bias_refuted exhibits daemon runs (SLEEP, exact sensors, body at rest) in which the rate given to the controllers stays at least a quarter of the bias for ever; C117_half and C117_rest say what happens instead (half the bias), C117_stuck that the half-bias state is kept exactly for any number of gyro steps per call.  Fix: store the raw reading in last_w, or do not subtract in propagate.  C117_half is for calls lasting one gyro step and local (eps, K, rho not computed); C117_runs shows that its runs exist.  The daemon's constructor cannot run against the repository's classes (see M_mgr), so the runs start from an object holding the two filters."
  },
  {
   "property": "C118",
   "status": "proved",
   "theorems": [
    "C118_filter",
    "C118_filter_start",
    "C118_daemon",
    "C118_rest",
    "C118_short",
    "C118_runs",
    "C118_no_duration_refuted"
   ],
   "note": "C118_filter and C118_filter_start: the filter on its own (generalises C115_slow to N gyro steps per reading).  C118_daemon, C118_rest: the daemon's calls (generalises C117_half and C117_rest to any number of steps that fit the call's duration by integrate's own condition).  C118_short: calls in which no step fits.  C118_no_duration_refuted: for every gyro step and every length of the calls there is a run (SLEEP, exact sensors, body at rest) whose shown rate stays at least a quarter of the bias.  Local: eps, K, rho exist for each dt and N and are not computed; the body's rate is constant between two readings; starting covariance the same about all axes (af_init is); the daemon theorem lets the body turn for the N gyro steps the filter counts, which is the call's duration when that is a multiple of the gyro step."
  },
  {
   "property": "C119",
   "status": "proved",
   "theorems": [
    "C119_power",
    "C119_stretch",
    "C119_spinup_refuted"
   ],
   "note": "C119_power: the rate of change at one instant.  C119_stretch: over a stretch of time.  C119_spinup_refuted: same ball, field, attitude and rate; under the moment asked for the rate dies as exp(-k t), and every satellite's motion in that field comes to rest (C105_turning); under the moments applied the rate is w0 + kappa t.  The cause is C25's: distribute's factor is the least ratio max/m[i], which is negative if any m[i] is.  Wheels at rest and no torque but the magnetic one; currents continuously updated; state exactly known; real arithmetic (in binary64 a negative zero component gives NaN, C25)."
  },
  {
   "property": "C120",
   "status": "proved",
   "theorems": [
    "C120_calendar",
    "C120_divisors",
    "C120_frozen",
    "C120_total",
    "C120_total_exact",
    "C120_drift_refuted"
   ],
   "note": "Generalises C16_binary64 (five steps) to every step.  Steps whose nearest multiple is between 9.9e-6 and 1.01e-5 s from 60 s are left out: there rounding decides.  Starts with the second hand at zero, no leap second.  The clock in use by the satellite model is JClock, whose absolute stays 0 (C21); this is about the class Clock."
  },
  {
   "property": "C121",
   "status": "proved",
   "theorems": [
    "C121_needle",
    "C121_compass",
    "C121_slow",
    "C121_beyond",
    "C121_stuck_refuted"
   ],
   "note": "Continuous-time reading of the loop: the controller is called at every instant.  The field is fixed in inertial space for the needle part.  Between the two regimes (some components below 0.3, some beyond) nothing is claimed.  C73 is the instant-by-instant statement this builds on; C119 is the proportional controller.  C121_stuck_refuted exhibits a precessing ball."
  },
  {
   "property": "C122",
   "status": "proved",
   "theorems": [
    "C122_power",
    "C122_stretch",
    "C122_spinup_refuted"
   ],
   "note": "Continuous-time reading of the loop, wheels unsaturated.  The rods are linear; C110 is the same loop with the moment asked for and its last part the instant-by-instant statement for currents; C119 is detumbling through the same wiring.  Only motions on the reference are covered (C110 shows pointing errors vanish whatever the torquers do).  C122_spinup_refuted has field -b0 x in the rolling frame."
  },
  {
   "property": "C123",
   "status": "proved",
   "theorems": [
    "C123_settles",
    "C123_parks"
   ],
   "note": "Continuous-time reading of the loop, wheels unsaturated, no external torque.  C114 bounds the error and shows that it returns; this says to what the motion converges.  By C117 and C118 the rate the daemon gives its controllers keeps half of the gyro's bias once the attitude filter has settled, so b is half the gyro bias here: with the default gains (alpha 0.02, gamma 0.1414) the vector part of the attitude error is about 7.07 |b| with |b| in rad/s.  The bound d0 is not computed."
  },
  {
   "property": "C124",
   "status": "proved",
   "theorems": [
    "C124_points",
    "C124_memory_refuted"
   ],
   "note": "Continuous-time reading of the loop, wheels unsaturated, instruments' zones off or empty, satellite never at the target.  The scalar part of point_and_stare's error is cos(theta/2) >= 0 by construction, so the memory +1 is always the short way and the memory -1 always the long way; the trigger is shared with the other modes of ReactionWheelsController, is not reset on a change of mode, and flips back only when cos(theta/2) >= 0.3, that is theta below 145 degrees.  The refuted motion is followed until the boresight would be exactly opposite, where acquire_target returns the zero quaternion (C76) and the law is discontinuous.  lam, d0 and K are not computed in the statement."
  },
  {
   "property": "C125",
   "status": "proved",
   "theorems": [
    "C125_asleep",
    "C125_rest_refuted"
   ],
   "note": "Commands held over each period and obeyed exactly, wheel speeds measured exactly, nobody else calling the state machine, torque from outside only that of the torquers (which get zero current).  The last commands before SPINDOWN and everything the calls are given besides the wheel speeds are arbitrary.  SLEEP can come a cycle or two after the wheels have stopped, because the transition looks at the accelerations commanded in the previous cycle.  SPINDOWN can be entered from SAFE with loaded wheels; by itself it leads only to SLEEP, which commands nothing and proposes only itself, so the rotation stays until somebody calls change_state."
  },
  {
   "property": "C126",
   "status": "proved",
   "theorems": [
    "C126_held",
    "C126_quiet_refuted"
   ],
   "note": "Consequence of C64_hold and C64_point_stale_refuted for the satellite.  Commands obeyed exactly between calls and no limit on the wheels' speed (the code has none); calls that raise leave the object as far as it was changed and the loop goes on with the commands in it.  The command of SLEEP and FAILED is zero, and then tau = 0 and the theorem says only that the momentum stays."
  },
  {
   "property": "C127",
   "status": "proved",
   "theorems": [
    "C127_never_early",
    "C127_punctual",
    "C127_never_refuted",
    "C127_late",
    "C127_year_refuted",
    "C127_jclock",
    "C127_jclock_begins"
   ],
   "note": "The composition of C16 and C21 (ticks), C18 and C22 (is_after: Clock compares the fields one by one, JClock the datetimes) and C59 (the rules).  The clock is read through the manager as state_machine.py does; that the manager may raise instead is C59_raises.  Exact seconds: C16 covers what rounding does to them.  In C127_jclock start and end are datetimes, as JClock.is_after needs, and the clock has not left the years 1 to 9999."
  },
  {
   "property": "C128",
   "status": "proved",
   "theorems": [
    "C128_parked",
    "C128_points_refuted"
   ],
   "note": "Composition of C117 (half the bias), C124 (point_and_stare) and the satellite.  The direction of the target is fixed as seen from the estimated position (stare_cycle); in the run of C128_points_refuted the position is held and the position filter takes no step during a call.  That the satellite settles into such a state from nearby is C123 for tracking with a biased rate, and C117 and C118 for the filter; the two together as one loop are not shown to settle.  Real arithmetic."
  },
  {
   "property": "C129",
   "status": "proved",
   "theorems": [
    "C129_held",
    "C129_runs",
    "C129_alias_refuted"
   ],
   "note": "The held version of C105: moment before distribute, wheels at rest, no other torque. The condition on h is sufficient, not sharp. C129_alias_refuted is why it must involve the initial momentum; its satellite is a ball."
  },
  {
   "property": "C130",
   "status": "proved",
   "theorems": [
    "C130_memory",
    "C130_left",
    "C130_opposite_refuted"
   ],
   "note": "The motion that follows from the memory -1 is C124_memory_refuted.  Both signs of the quaternion are the same attitude and nothing in the code prefers one.  Calls that raise are left out: in the code a call that raises after the trigger has stepped (an instrument with too short lists, C75) has changed it.  The transition table has no step from BBQ to POINT (C58), but BBQ, SAFE, POINT is allowed and SAFE does not touch the trigger."
  },
  {
   "property": "C131",
   "status": "proved",
   "theorems": [
    "C131_points",
    "C131_free",
    "C131_long_period_refuted"
   ],
   "note": "Wheels unsaturated, zones off or empty, satellite never at the target, the state handed to the controller exact (C114 and C116 treat the estimated state for tracking).  h0, d0, lam and K are explicit in the proof (P_hstare) but not sharp.  C131_ex gives a motion for every short period, C131_long_ex one with period 4 / gamma that is exactly on the target at every call and three times as fast at each."
  },
  {
   "property": "C132",
   "status": "proved",
   "theorems": [
    "C132_points",
    "C132_daemon",
    "C132_runs"
   ],
   "note": "C132_points states it for the controller told any sequence of states, C132_daemon for runs of mgr_propagate and the satellite, C132_runs gives runs with a persistent error.  Wheels unsaturated, zones off or empty, satellite never at the target.  How small d is for the filter of the code is the subject of C115, C116 and C117 and a hypothesis here.  The period of the calls is not tied to the duration handed to the filter: whatever the filter does with it enters only through d.  h0, d0, lam and K are explicit in the proof but not sharp."
  },
  {
   "property": "C133",
   "status": "proved",
   "theorems": [
    "C133_wheels",
    "C133_spindown_refuted",
    "C133_currents",
    "C133_current_refuted"
   ],
   "note": "C133_wheels and C133_currents are the envelopes, C133_spindown_refuted and C133_current_refuted the violations outside them.  The moment asked for is the cross product of field and torque divided by the squared field, read off the state shown to the controllers.  What the hardware drivers do with a command beyond the limit is outside the repository."
  },
  {
   "property": "C134",
   "status": "proved",
   "theorems": [
    "C134_turning",
    "C134_fixed",
    "C134_bias_refuted",
    "C134_held"
   ],
   "note": "C134_turning, C134_fixed and C134_held are the envelopes, C134_bias_refuted the violation.  As in C105 and C129 the moment is the commanded one, before distribute; wheels at rest; no other torque.  The field handed to detumble is the true one; only the rate is estimated."
  },
  {
   "property": "C135",
   "status": "proved",
   "theorems": [
    "C135_turns",
    "C135_angle",
    "C135_sharp"
   ],
   "note": "Composition of C133 with the equations of motion.  Commands obeyed exactly between calls; the torque of the torquers is counted in M.  With SPINDOWN at wheel speeds beyond C133's there is no such bound (C133_spindown_refuted)."
  },
  {
   "property": "C136",
   "status": "proved",
   "theorems": [
    "C136_kept",
    "C136_windup",
    "C136_hold_refuted"
   ],
   "note": "C136_kept and C136_windup are the envelopes, C136_hold_refuted the violation.  The code has no limit on the wheels' speed; unloading in BBQ is C110 and C122.  Commands obeyed exactly between calls."
  },
  {
   "property": "C137",
   "status": "proved",
   "theorems": [
    "C137_capped",
    "C137_rate",
    "C137_sharp",
    "C137_decays"
   ],
   "note": "Unlike C85 it does not assume that the wheels can give what is asked.  The controller is evaluated continuously; the sampled loop without saturation is C131.  Example C137_ex is a motion in which the command exceeds the limit fifty-six times."
  },
  {
   "property": "C138",
   "status": "proved",
   "theorems": [
    "C138_unsaturated",
    "C138_arrives",
    "C138_recovers"
   ],
   "note": "C138_unsaturated discharges the assumption of C85_rest that no wheel saturates; C138_arrives is C85_rest without it; C138_recovers covers starts with spin, and says when saturation ends, not that the target is then reached.  The controller is evaluated continuously.  The condition is sufficient, not necessary."
  },
  {
   "property": "C139",
   "status": "proved",
   "theorems": [
    "C139_flips",
    "C139_arrives"
   ],
   "note": "Removes from C85 the assumption that the start has too little energy to cross the trigger's threshold.  The controller is evaluated continuously and the trigger switches at the instant its condition is met; wheels are assumed unsaturated, as in C85.  Existence of the motion is not claimed in general; C139_ex builds one with a flip."
  }
 ]
}