{"id": "C01", "title": "quaternion.product is Hamilton's product", "statement": "quaternion.product is associative, has (1,0,0,0) as two-sided identity, multiplies squared norms, and conjugate is an involutive anti-automorphism with product(q,conjugate(q)) = |q|^2; it is not commutative, and i*j=k fixes the sign convention.", "quantifier": "all triples of quaternions (exact real arithmetic)", "why_tests_cant": "A test samples finitely many float tuples; the law is an identity/inequality over all of them and over all compositions.", "anchors": ["src/oresat_adcs/functions/quaternion.py:product", "src/oresat_adcs/functions/quaternion.py:conjugate"]}
{"id": "C02", "title": "sandwich/sandwich_opp are mutually inverse rigid coordinate changes", "statement": "For a unit quaternion, sandwich preserves dot products, lengths and cross products (hence orientation), sandwich_opp undoes it and vice versa, and sandwich by a product is the composition sandwich(b, sandwich(a, v)). For a non-unit quaternion the result is scaled by exactly |q|^2.", "quantifier": "all quaternions and all vectors", "why_tests_cant": "A test samples finitely many float tuples; the law is an identity/inequality over all of them and over all compositions.", "anchors": ["src/oresat_adcs/functions/quaternion.py:sandwich", "src/oresat_adcs/functions/quaternion.py:sandwich_opp"]}
{"id": "C03", "title": "error_quat is the attitude error", "statement": "error_quat(q,q_ref) is the identity exactly when a unit q equals q_ref, composes back: product(q_ref, error_quat(q,q_ref)) = q for unit q_ref, and has unit norm for unit inputs.", "quantifier": "all attitudes", "why_tests_cant": "A test samples finitely many float tuples; the law is an identity/inequality over all of them and over all compositions.", "anchors": ["src/oresat_adcs/functions/quaternion.py:error_quat"]}
{"id": "C04", "title": "axis-angle pointing: R_axis_angle + axisangle_to_quat carry the boresight onto the target, except when it points exactly away", "statement": "axisangle_to_quat of a unit axis is a unit quaternion for every angle. For unit boresight and unit target direction that are not opposite, the quaternion built from R_axis_angle is unit and actively rotates the boresight onto the target. When the target is exactly opposite the boresight the returned quaternion is (0,0,0,0), not a rotation.", "quantifier": "all unit boresights, all unit directions, all angles", "why_tests_cant": "The failure is on a measure-zero set (exact antipodes) that random tests never hit, and the positive claim ranges over the whole sphere.", "anchors": ["src/oresat_adcs/functions/vector.py:R_axis_angle", "src/oresat_adcs/functions/quaternion.py:axisangle_to_quat", "src/oresat_adcs/classes/controller.py:ReactionWheelsController.acquire_target"]}
{"id": "C05", "title": "eulerangle_to_quat is the 3-2-1 composition", "statement": "For every RA, dec, roll (degrees) eulerangle_to_quat returns a unit quaternion equal to rotation about z by RA, then y by dec, then x by roll; adding 360 degrees to one angle flips only the sign.", "quantifier": "all real angles", "why_tests_cant": "A test samples finitely many float tuples; the law is an identity/inequality over all of them and over all compositions.", "anchors": ["src/oresat_adcs/functions/quaternion.py:eulerangle_to_quat"]}
{"id": "C06", "title": "path_lift returns the representative nearest the reference", "statement": "path_lift returns q or -q of the measured attitude, so the physical attitude is unchanged, and of the two it returns one with metric no larger than the other (non-negative dot product with the reference); on a tie it returns -q.", "quantifier": "all angles and references", "why_tests_cant": "A test samples finitely many float tuples; the law is an identity/inequality over all of them and over all compositions.", "anchors": ["src/oresat_adcs/functions/quaternion.py:path_lift", "src/oresat_adcs/functions/quaternion.py:metric"]}
{"id": "C07", "title": "xi and cross matrices agree with the products they stand for", "statement": "xi(q) applied to v equals product(q,[0,v]); vector.cross(v) applied to w equals v x w, is skew symmetric, and squares to v v^T - |v|^2 I.", "quantifier": "all quaternions and vectors", "why_tests_cant": "A test samples finitely many float tuples; the law is an identity/inequality over all of them and over all compositions.", "anchors": ["src/oresat_adcs/functions/quaternion.py:xi", "src/oresat_adcs/functions/vector.py:cross"]}
{"id": "C08", "title": "_quat2equatorial never rejects a unit quaternion but reads a different component order", "statement": "For every unit quaternion 1-xn^2 >= 0 so the ValueError branch is unreachable, RA and roll lie in [0,360) and declination in [-90,90]. The function reads the scalar part from index 3 while every other function of the module stores it at index 0, so it does not invert eulerangle_to_quat (witness), and even on the reordered quaternion it returns declination with the opposite sign.", "quantifier": "all unit quaternions / all angles", "why_tests_cant": "A test samples finitely many float tuples; the law is an identity/inequality over all of them and over all compositions.", "anchors": ["src/oresat_adcs/functions/quaternion.py:_quat2equatorial", "src/oresat_adcs/functions/quaternion.py:eulerangle_to_quat"]}
{"id": "C09", "title": "saturation bounds every component and keeps direction", "statement": "In exact arithmetic every component of saturation(x,x_max) is at most x_max in magnitude, the output is a non-negative multiple of the input with factor min(1,x_max/max|x|), inputs already within bounds are returned unchanged, and saturating twice changes nothing. In binary64 the bound can be exceeded by one unit in the last place (witness) but never by more than a relative 2^-51 when nothing overflows or underflows, and an input containing NaN is returned unsaturated.", "quantifier": "all vectors of every length and all limits x_max >= 0", "why_tests_cant": "Rounding of x_max*x/largest_x exceeds the limit only on special mantissas; lengths and values are unbounded.", "anchors": ["src/oresat_adcs/functions/vector.py:saturation"]}
{"id": "C10", "title": "normalize returns a unit vector in the same direction or the zero vector", "statement": "normalize(q) has norm 1 and is a positive multiple of q for every non-zero q, returns the zero vector unchanged, and is idempotent; pointing_vector is the unit vector from position to target and is antisymmetric.", "quantifier": "all vectors of every length", "why_tests_cant": "A test samples finitely many float tuples; the law is an identity/inequality over all of them and over all compositions.", "anchors": ["src/oresat_adcs/functions/vector.py:normalize", "src/oresat_adcs/functions/vector.py:pointing_vector"]}
{"id": "C11", "title": "inertial_to_ecef is a rotation about z", "statement": "The matrix is orthogonal with determinant 1, fixes the z axis, preserves lengths, and its transpose is its inverse, for every clock; theta_gmst lies in [0,2pi).", "quantifier": "all clock readings", "why_tests_cant": "A test samples finitely many float tuples; the law is an identity/inequality over all of them and over all compositions.", "anchors": ["src/oresat_adcs/functions/frame.py:inertial_to_ecef", "src/oresat_adcs/classes/jday.py:theta_gmst"]}
{"id": "C12", "title": "lvlh_to_inertial is a right-handed orthonormal frame", "statement": "Whenever position and velocity are not parallel the matrix is orthogonal with determinant 1, its third column is the nadir direction, its second is minus the orbit normal, and the velocity has no component along the second and a positive component along the first. When they are parallel two columns are zero.", "quantifier": "all positions and velocities", "why_tests_cant": "A test samples finitely many float tuples; the law is an identity/inequality over all of them and over all compositions.", "anchors": ["src/oresat_adcs/functions/frame.py:lvlh_to_inertial"]}
{"id": "C13", "title": "ecef_to_lla: exactness set, symmetries and error cases", "statement": "ecef_to_lla raises for the zero vector; its height and |latitude| depend only on (sqrt(x^2+y^2),|z|), latitude is odd in z off the equator, longitude is atan2(y,x) in degrees; it is exact on the equator and on the polar axis; the final correction step leaves an exact initial guess unchanged. geodetic_to_ECEF takes radians and uses eccentricity 0.0818, so it is not an inverse of ecef_to_lla (witness).", "quantifier": "all ECEF positions", "why_tests_cant": "A test samples finitely many float tuples; the law is an identity/inequality over all of them and over all compositions.", "anchors": ["src/oresat_adcs/functions/frame.py:ecef_to_lla", "src/oresat_adcs/functions/frame.py:geodetic_to_ECEF"]}
{"id": "C14", "title": "triad_algorithm recovers the attitude from consistent vector pairs and never returns False", "statement": "If b1,b2 are the images of unit r1 and of r2 under some attitude, r1 and r2 are not parallel and b1 != -r1, then triad_algorithm returns a unit quaternion which maps r1 to b1 and r2 to b2. The documented False return never happens; on degenerate input (parallel vectors) the computation divides by zero.", "quantifier": "all vector pairs and attitudes", "why_tests_cant": "A test samples finitely many float tuples; the law is an identity/inequality over all of them and over all compositions.", "anchors": ["src/oresat_adcs/functions/attitude_estimation.py:triad_algorithm"]}
{"id": "C15", "title": "flae: characteristic polynomial, eigenvector and singular pivots", "statement": "The quartic whose root flae seeks is the characteristic polynomial of its matrix W for all inputs; when the found lam is an eigenvalue and the pivots are non-zero, the returned quaternion is a unit eigenvector of W; for error-free measurements of any attitude whose last quaternion component is 0 - the identity attitude included - a pivot is 0 and no quaternion is produced.", "quantifier": "all weights and vector sets of every length", "why_tests_cant": "A test samples finitely many float tuples; the law is an identity/inequality over all of them and over all compositions.", "anchors": ["src/oresat_adcs/functions/attitude_estimation.py:flae"]}
{"id": "C16", "title": "Clock.tick rolls the calendar over correctly when it lands on the minute", "statement": "From a valid Gregorian date-time, a tick that stays below 60 s changes only the seconds; one that lands within 1e-5 s of 60 s yields exactly the next minute of the proleptic Gregorian calendar, across hour, day, month and leap-year boundaries, and keeps the date valid. absolute always increases by dt.", "quantifier": "all valid clock states and all tick sequences", "why_tests_cant": "Calendar carry over all years, months and leap rules and arbitrary histories.", "anchors": ["src/oresat_adcs/classes/jday.py:Clock.tick", "src/oresat_adcs/classes/jday.py:Clock.is_leap_year", "src/oresat_adcs/classes/jday.py:Clock.days_in_month"]}
{"id": "C17", "title": "Clock.tick that steps over the minute freezes the clock", "statement": "If a tick leaves seconds at or above 60.00001 then under every later sequence of non-negative ticks the minute, hour, day, month and year never change again and the seconds grow without bound; hence a step dt that does not divide the minute loses time (witness dt=7).", "quantifier": "all histories after an overshoot", "why_tests_cant": "An unbounded-history claim.", "anchors": ["src/oresat_adcs/classes/jday.py:Clock.tick"]}
{"id": "C18", "title": "Clock.is_after is componentwise, not chronological", "statement": "is_after(t) is True exactly when each of the six fields is >= the corresponding field of t; True therefore implies the clock is not before t chronologically, but the converse fails: a later date with one smaller field (e.g. 2024-01-01 vs 2023-12-31) is reported as not after.", "quantifier": "all clock readings and all targets", "why_tests_cant": "The wrong answers are a sparse set of field combinations.", "anchors": ["src/oresat_adcs/classes/jday.py:Clock.is_after"]}
{"id": "C19", "title": "Clock.is_minutes_away computes the set-up instant", "statement": "For a valid target and 0 <= minutes < 60 the set-up time computed is exactly `minutes` minutes before the target whenever the clock's year has the same leap status as the target's; otherwise a target on March 1st is off by one day (witness). It answers True only when the clock is not field-wise after the target.", "quantifier": "all valid targets, all minute windows", "why_tests_cant": "Borrow across month and leap boundaries.", "anchors": ["src/oresat_adcs/classes/jday.py:Clock.is_minutes_away"]}
{"id": "C20", "title": "The two Julian dates agree from March 1900 to February 2100", "statement": "Clock.julian_date of a date and time equals JClock.julian_date of the same instant for every valid date from 1900-03-01 to 2100-02-28, and differs for dates from 2100-03-01 on.", "quantifier": "all 73000 dates in the window and all times of day", "why_tests_cant": "The claim ranges over every date and time.", "anchors": ["src/oresat_adcs/classes/jday.py:Clock.julian_date", "src/oresat_adcs/classes/jday.py:JClock.julian_date"]}
{"id": "C21", "title": "JClock advances exactly and monotonically", "statement": "tick(dt) moves the clock by dt rounded to the nearest microsecond; consecutive whole-microsecond ticks add up exactly in any order; ticks shorter than half a microsecond are lost, however many there are; absolute never changes; the only error is OverflowError outside years 1..9999.", "quantifier": "all datetimes and all tick histories", "why_tests_cant": "Accumulation over arbitrary histories.", "anchors": ["src/oresat_adcs/classes/jday.py:JClock.tick", "src/oresat_adcs/classes/jday.py:JClock.__init__"]}
{"id": "C22", "title": "JClock ordering and distance queries are consistent", "statement": "is_after is a strict total order with equality; minutes_away is antisymmetric, additive and positive exactly when the other time is later; is_minutes_away(t,m) holds exactly when minutes_away(t) is within one minute of m; all are preserved when both clocks are shifted.", "quantifier": "all pairs of datetimes", "why_tests_cant": "A test samples finitely many float tuples; the law is an identity/inequality over all of them and over all compositions.", "anchors": ["src/oresat_adcs/classes/jday.py:JClock.is_after", "src/oresat_adcs/classes/jday.py:JClock.minutes_away", "src/oresat_adcs/classes/jday.py:JClock.is_minutes_away"]}
{"id": "C23", "title": "Sidereal time: both clocks give the same GMST on whole seconds", "statement": "For every date in 1900-03-01..2100-02-28 and whole second, Clock and JClock return the same centuries_elapsed, gmst_seconds and theta_gmst, and the sidereal angle advances by 2*pi*1.00273790935 per day within a day.", "quantifier": "all dates and times in the window", "why_tests_cant": "A test samples finitely many float tuples; the law is an identity/inequality over all of them and over all compositions.", "anchors": ["src/oresat_adcs/classes/jday.py:gmst_seconds", "src/oresat_adcs/classes/jday.py:centuries_elapsed", "src/oresat_adcs/classes/jday.py:theta_gmst"]}
{"id": "C24", "title": "Magnetorquer current and moment models are near-inverse on the usable range", "statement": "For each torquer type getCurrent(actuate(I)) equals I to within one part in a million for Square and LinearRod at every current, and for Rod whenever |I| <= 59/55 A; actuate is odd and strictly increasing there. For Rod beyond 59/55 A the round trip folds back, and getCurrent is undefined (square root of a negative) when |m| > 3481/2750.", "quantifier": "all currents and moments", "why_tests_cant": "A test samples finitely many float tuples; the law is an identity/inequality over all of them and over all compositions.", "anchors": ["src/oresat_adcs/configuration/structure.py:Magnetorquer.actuate", "src/oresat_adcs/configuration/structure.py:Magnetorquer.getCurrent"]}
{"id": "C25", "title": "MagnetorquerSystem.distribute limits and direction: holds for positive commands, reverses otherwise", "statement": "For a commanded moment with all components positive the currents returned correspond to a moment in the same direction with no torquer above its maximum, unchanged if already feasible. If any component is negative the whole command is multiplied by a negative number: the produced moment points the opposite way, and can exceed the limits; a -0.0 component turns the command into NaN.", "quantifier": "all commanded moments and all torquer limits", "why_tests_cant": "Sign conditions over the whole command space, including signed zeros.", "anchors": ["src/oresat_adcs/configuration/structure.py:MagnetorquerSystem.distribute"]}
{"id": "C26", "title": "Reaction wheel allocation reproduces the commanded torque", "statement": "When the wheel axes span space and the wheels are not torque limited (or the limit is not reached) the torque of the returned accelerations equals the commanded torque exactly; among all wheel torque vectors that do so the allocation has least norm; when limited, every wheel torque is at most max_T and the produced torque is the commanded one scaled by a factor in (0,1].", "quantifier": "all commanded torques, all wheel sets with invertible A A^T", "why_tests_cant": "A test samples finitely many float tuples; the law is an identity/inequality over all of them and over all compositions.", "anchors": ["src/oresat_adcs/configuration/structure.py:ReactionWheelSystem.accelerations", "src/oresat_adcs/configuration/structure.py:ReactionWheelSystem.torque"]}
{"id": "C27", "title": "The four-wheel pyramid has null space [-1,1,-1,1] and full rank", "statement": "For the pyramid of axes at any inclination strictly between 0 and pi/2 and any azimuth, wheel speeds proportional to [-1,1,-1,1] and only those carry zero net momentum, and the axes span space.", "quantifier": "all inclinations and azimuths", "why_tests_cant": "A test samples finitely many float tuples; the law is an identity/inequality over all of them and over all compositions.", "anchors": ["src/oresat_adcs/configuration/structure.py:ReactionWheelSystem", "examples/utility/helper.py:make_satellite"]}
{"id": "C28", "title": "Satellite inertia matrices are symmetric positive definite", "statement": "For positive principal moments and wheels with unit axes and non-negative moments the total and reduced moments are symmetric, the total is positive definite when reduced=False, total = reduced + sum of J_par a a^T, and products of inertia are added exactly when reduced=True (the opposite of the documentation).", "quantifier": "all satellites", "why_tests_cant": "A test samples finitely many float tuples; the law is an identity/inequality over all of them and over all compositions.", "anchors": ["src/oresat_adcs/configuration/structure.py:Satellite.__init__", "src/oresat_adcs/configuration/structure.py:Wheel.__init__"]}
{"id": "C29", "title": "Wall forces: sign, exposure and the squared-area torque", "statement": "projected_area is non-negative and 0 for walls facing away; drag on a wall is antiparallel to the flow and solar pressure pushes away from the sun, both vanish for walls facing away; the torque returned is the projected area times centroid x F, i.e. not centroid x F.", "quantifier": "all walls, directions and pressures", "why_tests_cant": "A test samples finitely many float tuples; the law is an identity/inequality over all of them and over all compositions.", "anchors": ["src/oresat_adcs/configuration/structure.py:Wall.projected_area", "src/oresat_adcs/configuration/structure.py:Wall.srp_force", "src/oresat_adcs/configuration/structure.py:Wall.drag_force", "src/oresat_adcs/configuration/structure.py:Wall.center_of_pressure"]}
{"id": "C30", "title": "Whole-box projected area and aerodynamics", "statement": "For the six walls of a Satellite the projected area along v is |vx|wh+|vy|lh+|vz|wl, the drag force is pressure*area*v, the area-weighted centre of pressure lies on the box surface side facing the flow, and the torque about the geometric centre (zero for a correctly weighted uniform box) is in general non-zero because each wall torque carries its area twice.", "quantifier": "all box dimensions and directions", "why_tests_cant": "A test samples finitely many float tuples; the law is an identity/inequality over all of them and over all compositions.", "anchors": ["src/oresat_adcs/configuration/structure.py:Satellite.__init__", "src/oresat_adcs/classes/dynamics.py:Dynamics.area_and_cop", "src/oresat_adcs/classes/dynamics.py:Dynamics.drag_F_and_T"]}
{"id": "C31", "title": "relative_vel is not the velocity relative to the rotating atmosphere", "statement": "For every state the x and z components equal those of v - w x r, but the y component has the opposite sign of the rotation term: a body co-rotating with the Earth off the y-z plane gets a non-zero relative velocity, and the error is exactly 2*w*x in y.", "quantifier": "all positions and velocities", "why_tests_cant": "A test samples finitely many float tuples; the law is an identity/inequality over all of them and over all compositions.", "anchors": ["src/oresat_adcs/configuration/environment.py:relative_vel"]}
{"id": "C32", "title": "atmo_density is defined exactly on [250 km, 500 km), positive and strictly decreasing", "statement": "atmo_density raises outside [250 km,500 km); inside it is positive and strictly decreasing across all band boundaries; it is continuous to within 7 percent at each boundary except at 450 km, where a wrong reference height drops it by more than half.", "quantifier": "all heights", "why_tests_cant": "A test samples finitely many float tuples; the law is an identity/inequality over all of them and over all compositions.", "anchors": ["src/oresat_adcs/configuration/environment.py:atmo_density"]}
{"id": "C33", "title": "gravity_accel against its potential", "statement": "The low-fidelity acceleration is the gradient of mu/r at every non-zero position. The high-fidelity acceleration agrees with the gradient of the J2-J3-J4 zonal potential in its z component and in the J2 part, but the x and y parts of J3 and J4 have the opposite sign, so it is not that gradient.", "quantifier": "all non-zero positions", "why_tests_cant": "A test samples finitely many float tuples; the law is an identity/inequality over all of them and over all compositions.", "anchors": ["src/oresat_adcs/configuration/environment.py:hi_fi_gravity", "src/oresat_adcs/configuration/environment.py:gravity_accel"]}
{"id": "C34", "title": "magnetic_field is a rotated dipole", "statement": "For every clock and non-zero position |B|^2 r^6 = |m|^2 + 3(m.r/r)^2, hence |m|/r^3 <= |B| <= 2|m|/r^3; the field falls with the cube of distance, is even in position, and rotating to ECEF and back changes nothing.", "quantifier": "all positions and clocks", "why_tests_cant": "A test samples finitely many float tuples; the law is an identity/inequality over all of them and over all compositions.", "anchors": ["src/oresat_adcs/configuration/environment.py:magnetic_field"]}
{"id": "C35", "title": "SRP_info: unit sun vector and cylindrical shadow", "statement": "The Earth-to-sun direction is a unit vector at every date; the returned satellite-to-sun vector is unit length for every position within 1 AU; outside the Earth in_shadow holds exactly when the position is on the night side and its distance from the Earth-sun axis is below the Earth radius; inside the Earth it is reported not in shadow; the pressure is positive and inverse-square.", "quantifier": "all dates and positions", "why_tests_cant": "A test samples finitely many float tuples; the law is an identity/inequality over all of them and over all compositions.", "anchors": ["src/oresat_adcs/configuration/environment.py:SRP_info"]}
{"id": "C36", "title": "Every simulated step leaves a unit attitude", "statement": "After each Integrator.update with simulator on, the attitude has norm 1 unless the RK4 sum is exactly zero, whatever the model, parameters and number of steps; the other four state components are those of the plain RK4 step.", "quantifier": "all vector fields, states and step counts", "why_tests_cant": "History of arbitrary length and arbitrary dynamics.", "anchors": ["src/oresat_adcs/classes/dynamics.py:Integrator.update"]}
{"id": "C37", "title": "integrate takes exactly the steps that fit the duration", "statement": "For dt>0 integrate terminates and makes exactly the k>=1 with k*dt < duration or |k*dt-duration| < 0.001; so simulated time is never short by a full step, a trailing remainder is dropped, a duration below dt-0.001 advances nothing, and for dt <= 0.001 steps overshoot; for dt<=0 and positive duration it never terminates. In binary64 accumulation the count is the same for dt=0.05 and n steps, for every n up to 10^5.", "quantifier": "all durations and step sizes", "why_tests_cant": "Loop counts for unbounded inputs and accumulated rounding.", "anchors": ["src/oresat_adcs/classes/dynamics.py:Integrator.integrate", "src/oresat_adcs/system/simulator.py:SimulatorDaemonInterface.input"]}
{"id": "C38", "title": "RK4 step is exact where it must be", "statement": "RK4_step is exact for constant and for degree<=3 polynomial motion (constant-jerk chain), multiplies a linear mode by 1+z+z^2/2+z^3/6+z^4/24, and its local error on x'=lx is at most |z|^5 e^|z|/120; in particular wheel velocities after n steps are exactly w0 + n*dt*accl.", "quantifier": "all states, step sizes and counts", "why_tests_cant": "A test samples finitely many float tuples; the law is an identity/inequality over all of them and over all compositions.", "anchors": ["src/oresat_adcs/classes/dynamics.py:Integrator.RK4_step", "src/oresat_adcs/classes/dynamics.py:Dynamics.vector_field"]}
{"id": "C39", "title": "Simulated time and the shared clock", "statement": "integrate advances the clock by exactly one tick of dt per step, the clock object is shared by every state produced, so the caller's initial state sees the new time; SimulatorDaemonInterface always steps by 0.05 s whatever dt it is given.", "quantifier": "all histories", "why_tests_cant": "History claim plus aliasing.", "anchors": ["src/oresat_adcs/classes/dynamics.py:Integrator.update", "src/oresat_adcs/classes/dynamics.py:SatelliteState.__add__", "src/oresat_adcs/system/simulator.py:SimulatorDaemonInterface.__init__"]}
{"id": "C40", "title": "Motion conserves what it should", "statement": "Along every differentiable solution of vector_field: the attitude norm is constant; the inertial total angular momentum of body plus wheels changes at exactly the external torque, so it is constant without one, whatever the wheel commands; rotational kinetic energy of the body is constant when wheels are idle and no external torque acts.", "quantifier": "all solutions, all times, all wheel commands", "why_tests_cant": "A statement about every trajectory.", "anchors": ["src/oresat_adcs/classes/dynamics.py:Dynamics.vector_field"]}
{"id": "C41", "title": "Environment forces and torques", "statement": "Magnetic torque is perpendicular to field and moment; gravity-gradient torque has no component along the local vertical and vanishes for an isotropic body; drag power relative to the air is non-positive; in shadow there is no solar force; solar torque does not depend on attitude at all, because the sun vector is not rotated into the body frame.", "quantifier": "all states", "why_tests_cant": "A test samples finitely many float tuples; the law is an identity/inequality over all of them and over all compositions.", "anchors": ["src/oresat_adcs/classes/dynamics.py:Dynamics.env_F_and_T", "src/oresat_adcs/classes/dynamics.py:Dynamics.solar_F_and_T", "src/oresat_adcs/classes/dynamics.py:Dynamics.gravity_F_and_T", "src/oresat_adcs/classes/dynamics.py:Dynamics.drag_F_and_T"]}
{"id": "C42", "title": "Noise-free measurement is the true value, in fixed order, when sizes match", "statement": "With noisy=False each sensor returns the state component it stands for (magnetometer and sun sensor: the inertial vector seen in the body frame), Dynamics.measurement returns them in sensor order, and for components longer than one entry the call succeeds exactly when the configured size matches the component length or is 1 (numpy stretches it) - so the default size raises for StarTracker and four-wheel Wheel_vel.", "quantifier": "all states, sensors and sizes", "why_tests_cant": "A test samples finitely many float tuples; the law is an identity/inequality over all of them and over all compositions.", "anchors": ["src/oresat_adcs/classes/sensor.py:Sensor.measurement", "src/oresat_adcs/classes/sensor.py:StarTracker.generate_noise", "src/oresat_adcs/classes/dynamics.py:Dynamics.measurement"]}
{"id": "C43", "title": "Gyro bias is a random walk driven by its noise stream", "statement": "After any sequence of propagate(dt_i) the bias is the initial bias plus the sum of sqrt(dt_i)*n_i, last_bias is the bias one step earlier, the noisy reading's bias part is their mean; with zero noise the bias never changes; noise_coefficient is sqrt(arw_var/dt + rrw_var*dt).", "quantifier": "all noise streams and step histories", "why_tests_cant": "Arbitrary histories and noise streams.", "anchors": ["src/oresat_adcs/classes/sensor.py:Gyro.propagate", "src/oresat_adcs/classes/sensor.py:Gyro.generate_noise"]}
{"id": "C44", "title": "A noisy star tracker reading is not a unit quaternion", "statement": "The scalar part is reported without noise; the reading has unit norm exactly when the noise n satisfies 2*q_v.n + |n|^2 = 0, so any noise vector not doing so yields a non-unit measurement.", "quantifier": "all attitudes and noises", "why_tests_cant": "A test samples finitely many float tuples; the law is an identity/inequality over all of them and over all compositions.", "anchors": ["src/oresat_adcs/classes/sensor.py:StarTracker"]}
{"id": "C45", "title": "Position filter covariance stays symmetric positive semidefinite for ever", "statement": "For every sequence of update and propagate calls of any length, with any measurements and step sizes, the position filter's covariance is symmetric positive semidefinite and P+R is invertible, so no update can raise LinAlgError.", "quantifier": "all call histories", "why_tests_cant": "Unbounded histories.", "anchors": ["src/oresat_adcs/classes/observers.py:DiscretePositionKalman.update", "src/oresat_adcs/classes/observers.py:DiscretePositionKalman.propagate"]}
{"id": "C46", "title": "Position update is the minimum-variance combination", "statement": "After an update the covariance equals the Joseph form, is below both the prior covariance and the measurement covariance, and the estimate lies at prior + K(measurement - prior), equal to the prior when the measurement agrees; the state object's position and velocity are set to the estimate by update but not by propagate.", "quantifier": "all priors and measurements", "why_tests_cant": "A test samples finitely many float tuples; the law is an identity/inequality over all of them and over all compositions.", "anchors": ["src/oresat_adcs/classes/observers.py:DiscretePositionKalman.update"]}
{"id": "C47", "title": "Covariance propagation uses the negated gravity gradient", "statement": "The lower-left block of F_continuous is exactly minus the Jacobian of the two-body gravity acceleration at the estimated position (hence of opposite sign to the dynamics it should linearise), symmetric and trace-free.", "quantifier": "all positions", "why_tests_cant": "A test samples finitely many float tuples; the law is an identity/inequality over all of them and over all compositions.", "anchors": ["src/oresat_adcs/classes/observers.py:DiscretePositionKalman.F_continuous"]}
{"id": "C48", "title": "Attitude filter covariance stays symmetric positive semidefinite for ever", "statement": "For every sequence of measurement and propagate calls with non-negative time steps the attitude filter's covariance stays symmetric positive semidefinite and its innovation matrix is invertible.", "quantifier": "all call histories", "why_tests_cant": "Unbounded histories.", "anchors": ["src/oresat_adcs/classes/observers.py:DiscreteAttitudeStartrackerKalman.measurement", "src/oresat_adcs/classes/observers.py:DiscreteAttitudeStartrackerKalman.propagate"]}
{"id": "C49", "title": "Attitude filter reset and half-step correction", "statement": "After every measurement the attitude estimate is a unit quaternion (given a unit prior), the error state is zero and the bias has absorbed the correction; a measurement equal to the prior changes nothing; with gain I the estimate moves only part of the way to the measurement because the half-angle error is halved again.", "quantifier": "all priors and measurements", "why_tests_cant": "A test samples finitely many float tuples; the law is an identity/inequality over all of them and over all compositions.", "anchors": ["src/oresat_adcs/classes/observers.py:DiscreteAttitudeStartrackerKalman.reset", "src/oresat_adcs/classes/observers.py:DiscreteAttitudeStartrackerKalman.measurement"]}
{"id": "C50", "title": "Attitude transition matrices", "statement": "phi_11 is a rotation for every rate and step, equals the coordinate change of the rotated frame, satisfies d/dt phi_11 = -[w x] phi_11 and d/dt phi_12 = -phi_11 with phi(0)=I.", "quantifier": "all rates and step sizes", "why_tests_cant": "A test samples finitely many float tuples; the law is an identity/inequality over all of them and over all compositions.", "anchors": ["src/oresat_adcs/classes/observers.py:DiscreteAttitudeStartrackerKalman.state_transition"]}
{"id": "C51", "title": "Attitude propagation does not preserve the quaternion norm", "statement": "The propagated quaternion equals product(q,(cos,psi)) plus (1-cos)(0,q_v): it is the exact rotation only if the rate is zero, the half angle is a multiple of 2pi or q_v=0; otherwise the result is not the rotated attitude, and in general not unit.", "quantifier": "all rates, steps and attitudes", "why_tests_cant": "A test samples finitely many float tuples; the law is an identity/inequality over all of them and over all compositions.", "anchors": ["src/oresat_adcs/classes/observers.py:DiscreteAttitudeStartrackerKalman.propagate"]}
{"id": "C52", "title": "MayhewTrigger is a hysteretic sign", "statement": "The output is always +1 or -1; it changes only when the input has the opposite sign and magnitude at least half_width, and then takes the input's sign; inputs inside the band never change it, however many; with half_width 0 it is the sign of the last non-zero input; between two changes the input moves by at least 2*half_width; for inputs in [-1,1] it is constant when half_width>1, but not for half_width=1 (witness). Holds for every binary64 input, NaN included.", "quantifier": "all input sequences and widths", "why_tests_cant": "Unbounded input histories.", "anchors": ["src/oresat_adcs/classes/controller.py:MayhewTrigger"]}
{"id": "C53", "title": "Magnetorquer torque is the achievable part of the command", "statement": "Before current limiting, the torque m x B produced by actuator_commands is the commanded torque minus its component along the field, for every non-zero field; detumble and desaturate therefore never increase the squared momentum they act on. After distribute's sign reversal this fails: there are states where detumble speeds the satellite up.", "quantifier": "all fields, rates and gains", "why_tests_cant": "A test samples finitely many float tuples; the law is an identity/inequality over all of them and over all compositions.", "anchors": ["src/oresat_adcs/classes/controller.py:MagnetorquerController.actuator_commands", "src/oresat_adcs/classes/controller.py:MagnetorquerController.detumble", "src/oresat_adcs/classes/controller.py:MagnetorquerController.desaturate"]}
{"id": "C54", "title": "Tracking control cancels gyroscopic coupling and dissipates", "statement": "With unsaturated wheels the commanded accelerations cancel the gyroscopic term of vector_field exactly, and for a fixed target without instrument constraints the closed loop satisfies V' = -gamma |w|^2 for V = 2 alpha (1 - s q0) + |w|^2/2, for every attitude, rate, wheel speed and inertia.", "quantifier": "all states and gains", "why_tests_cant": "A test samples finitely many float tuples; the law is an identity/inequality over all of them and over all compositions.", "anchors": ["src/oresat_adcs/classes/controller.py:ReactionWheelsController.tracking", "src/oresat_adcs/classes/controller.py:ReactionWheelsController.actuator_commands", "src/oresat_adcs/classes/dynamics.py:Dynamics.vector_field"]}
{"id": "C55", "title": "allowable_zone is not the gradient of its barrier", "statement": "When no instrument is in its alert zone the term is -s*alpha*q_v. When one is, the law matches the attraction part of the barrier potential 2(1-s q0)(alpha - sum g ln psi) but applies half of its repulsive gradient, so the potential's time derivative under the law retains the term -(1-s q0)/2 w.axis; the nadir object is supplied in inertial, not body, coordinates.", "quantifier": "all attitudes, rates and instruments", "why_tests_cant": "A test samples finitely many float tuples; the law is an identity/inequality over all of them and over all compositions.", "anchors": ["src/oresat_adcs/classes/controller.py:ReactionWheelsController.allowable_zone", "src/oresat_adcs/classes/controller.py:ReactionWheelsController.__init__", "src/oresat_adcs/configuration/structure.py:SensitiveInstrument"]}
{"id": "C56", "title": "BBQ roll reference", "statement": "ecliptic_attitude returns a unit quaternion at all times whose body z axis is the ecliptic pole, rotating at 4*0.00733 rad/s of clock.absolute; with a JClock, whose absolute stays 0, the reference never rolls.", "quantifier": "all times", "why_tests_cant": "A test samples finitely many float tuples; the law is an identity/inequality over all of them and over all compositions.", "anchors": ["src/oresat_adcs/classes/controller.py:ReactionWheelsController.ecliptic_attitude"]}
{"id": "C57", "title": "change_state follows the transition table and fails safe", "statement": "change_state(s) returns True and enters s exactly when s is listed for the current state, otherwise enters FAILED and returns False; so after any sequence of commands the state is one reached only by listed moves or FAILED, FAILED is left only to UNSAFE, and SPINDOWN only to SLEEP or FAILED.", "quantifier": "all command histories", "why_tests_cant": "Unbounded histories over all states.", "anchors": ["src/oresat_adcs/configuration/state_machine.py:StateMachine.change_state", "src/oresat_adcs/configuration/state_machine.py:StateMachine.__init__"]}
{"id": "C58", "title": "Automatic transitions never fail the machine; the table refuses BBQ to POINT", "statement": "Every state proposed by the automatic transition logic is in the table of the state it leaves, so transition() alone never drives the machine to FAILED; the table itself refuses POINT in BBQ (it lists the integer 7), so commanding POINT there fails the machine, and so would a mission starting in BBQ if the helper calls in State did not lose their receiver.", "quantifier": "all sensor inputs, missions and states", "why_tests_cant": "Quantifies over every measurement and state.", "anchors": ["src/oresat_adcs/configuration/state_machine.py:State.BBQ_transition", "src/oresat_adcs/configuration/state_machine.py:StateMachine.transition"]}
{"id": "C59", "title": "Automatic decision rules and errors", "statement": "transition() picks exactly: SAFE goes to POINT once the mission has started; SPINDOWN goes to SLEEP when slow; POINT goes to UNSAFE when the mission is over; SLEEP, FAILED, MANUAL stay for ever. In DETUMBLE, BBQ and UNSAFE it always raises TypeError (State's methods are called on the class, so self.SAFE_transition misses an argument) and the state never changes; in SAFE and POINT it raises when no mission is set. With the receiver bound: DETUMBLE goes to BBQ when |w|<0.05 rad/s; BBQ goes to SAFE when aligned, low control and low wheels; UNSAFE goes to POINT or raises.", "quantifier": "all measurements, missions and clocks", "why_tests_cant": "Decision rules over a continuous input space.", "anchors": ["src/oresat_adcs/configuration/state_machine.py:State"]}
{"id": "C60", "title": "A finished mission leaves the machine in UNSAFE for ever", "statement": "With a mission that is over, transition() goes from POINT to UNSAFE and every later call raises there, for ever; with the receiver of the helper calls bound it would alternate POINT, UNSAFE, POINT, ... for ever.", "quantifier": "all histories of transition calls", "why_tests_cant": "Unbounded history.", "anchors": ["src/oresat_adcs/configuration/state_machine.py:State.UNSAFE_transition", "src/oresat_adcs/configuration/state_machine.py:State.POINT_transition"]}
{"id": "C61", "title": "Concurrent change_state and set_next_mission calls linearise", "statement": "Under the lock, every interleaving of any number of threads calling change_state and set_next_mission ends in a state and return values equal to some sequential order of the calls, and every finite set of calls with valid arguments completes (no deadlock).", "quantifier": "all thread counts and schedules", "why_tests_cant": "Schedules cannot be enumerated.", "anchors": ["src/oresat_adcs/configuration/state_machine.py:StateMachine.change_state", "src/oresat_adcs/configuration/state_machine.py:StateMachine.set_next_mission"]}
{"id": "C62", "title": "transition() is not atomic", "statement": "transition reads the state without the lock and decides before calling change_state: its writes are still moves of the table and an uninterrupted call is the sequential one, but there is a schedule in which an accepted MANUAL command is overwritten by a transition although every sequential order ends in MANUAL, and one with two accepted commands that ends in FAILED although no sequential order does.", "quantifier": "all schedules", "why_tests_cant": "A race.", "anchors": ["src/oresat_adcs/configuration/state_machine.py:StateMachine.transition"]}
{"id": "C63", "title": "An integer command can wedge the state machine", "statement": "In BBQ, change_state(7) is accepted and stores the integer 7; the next change_state or transition raises, and the former raises with the lock held, so every later call blocks for ever; with State arguments only, the lock is always released.", "quantifier": "all command histories", "why_tests_cant": "A reachable dead state found only by exhaustive reasoning.", "anchors": ["src/oresat_adcs/configuration/state_machine.py:StateMachine.change_state"]}
{"id": "C64", "title": "mission_input commands by mode and otherwise holds stale commands", "statement": "SLEEP and FAILED command zero current and zero wheel acceleration; DETUMBLE commands no wheels; POINT commands no currents; UNSAFE, SAFE and MANUAL (and unknown ids) leave the previous commands in force unchanged, for any number of calls; a controller that raises leaves its previous command in force, which is what POINT always does to the wheels with the environments of this repository.", "quantifier": "all mode sequences and states", "why_tests_cant": "Unbounded mode histories.", "anchors": ["src/oresat_adcs/system/manager_class.py:ManagerDaemonInterface.mission_input"]}
{"id": "C65", "title": "Spin-down reduces the wheels without disturbing the satellite first", "statement": "In SPINDOWN the first phase command is along the wheels' null direction, gives zero net torque for the pyramid, and under sample-and-hold with step h shrinks the null component by 1-h per step leaving the rest; the second phase shrinks all speeds by 1-h*mult, handing the wheels' momentum to the body; with all speeds below the thresholds the command is zero; for every h in (0,1] and all speeds the wheels settle after finitely many commands and the state machine then sleeps.", "quantifier": "all wheel speeds and step counts", "why_tests_cant": "Unbounded iteration.", "anchors": ["src/oresat_adcs/system/manager_class.py:ManagerDaemonInterface.mission_input"]}
{"id": "C66", "title": "KalmanFilters.propagate step counts", "statement": "For positive step sizes KalmanFilters.propagate applies exactly the attitude steps and position steps that fit the duration under the same rule as integrate, independently for the two rates (supposing the attribute PosFilter.model it uses; without it, as in this repository, it raises exactly when a position step fits), and the daemon skips the measurement update exactly when no sensor data is given.", "quantifier": "all durations and rates", "why_tests_cant": "Loop counts over all inputs.", "anchors": ["src/oresat_adcs/classes/observers.py:KalmanFilters.propagate", "src/oresat_adcs/system/manager_class.py:ManagerDaemonInterface.sensor_input"]}
{"id": "C67", "title": "Basilisk quaternion library is the same algebra in scalar-last order", "statement": "quat_mult of non-zero quaternions is the unit Hamilton product in scalar-last order, agreeing with quaternion.product after reordering; scaling inputs by positive factors changes nothing; quat_error(t,c) rotates c into t; zero input divides by zero.", "quantifier": "all non-zero quaternions", "why_tests_cant": "A test samples finitely many float tuples; the law is an identity/inequality over all of them and over all compositions.", "anchors": ["simulation/Quaternions.py:quat_mult", "simulation/Quaternions.py:quat_error", "simulation/Quaternions.py:to_scalar_last", "src/oresat_adcs/functions/quaternion.py:product"]}
{"id": "C68", "title": "Basilisk axis-angle and angle extraction", "statement": "axis_angle_to_quaternion is unit for every non-zero axis; get_rotation_angle_from_quaternion returns the angle for angles in [0,360] degrees; error_angle returns an angle in [0,180] and is the same for q and -q; quat_to_axis recovers the axis for angles away from 0; rotation_sequence_to_quaternion turns about the first axis first with all axes fixed in space (not about body axes as its docstring says), and its final assertion that the norm equals 1 fails in binary64 for sound quaternions.", "quantifier": "all axes and angles", "why_tests_cant": "A test samples finitely many float tuples; the law is an identity/inequality over all of them and over all compositions.", "anchors": ["simulation/Quaternions.py:axis_angle_to_quaternion", "simulation/Quaternions.py:error_angle", "simulation/Quaternions.py:get_rotation_angle_from_quaternion", "simulation/Quaternions.py:rotation_sequence_to_quaternion"]}
{"id": "C69", "title": "Wheel torque clamp", "statement": "check_torque_vals writes torques within +-maxTorque for every input, NaN and infinities included (binary64), leaves feasible commands untouched, only ever changes the first four entries, and for every history of commands keeps the wheel within maxSpeed once it is there and brings it back at full torque when it is not; zero_wheel_speeds stops a wheel in finitely many steps. But a NaN command is sent as -maxTorque, and a command that would carry a spinning wheel through zero past the opposite limit is replaced by a torque of the opposite sign.", "quantifier": "all commands and speeds", "why_tests_cant": "Includes special float values and all magnitudes.", "anchors": ["simulation/FlightSoftwareModule.py:FlightSoftware.check_torque_vals", "simulation/FlightSoftwareModule.py:FlightSoftware.zero_wheel_speeds"]}
{"id": "C70", "title": "Slew/precise mode hysteresis", "statement": "mode is always slew or precise; it leaves slew only below 30 degrees and precise only above 40, so error sequences staying within [30,40] never switch it.", "quantifier": "all error histories", "why_tests_cant": "Unbounded histories.", "anchors": ["simulation/FlightSoftwareModule.py:FlightSoftware.mode_check"]}
{"id": "C71", "title": "The hemisphere check is undone by the controller", "statement": "check_hemi followed by quaternion_controller produces the same torque as no check at all for every error quaternion, so q and -q (the same attitude) get opposite attitude torque and the short way round is not selected.", "quantifier": "all error quaternions and rates", "why_tests_cant": "A test samples finitely many float tuples; the law is an identity/inequality over all of them and over all compositions.", "anchors": ["simulation/FlightSoftwareModule.py:FlightSoftware.check_hemi", "simulation/FlightSoftwareModule.py:FlightSoftware.quaternion_controller"]}
{"id": "C72", "title": "Position filter process noise ignores the step length", "statement": "Each propagate call adds the same velocity variance whatever its dt: n calls of zero duration leave the estimate unchanged and add exactly n*a_sigma^2 to the variance of every velocity component, so the covariance after a given time depends on how many steps it was cut into.", "quantifier": "all filters and call counts", "why_tests_cant": "Unbounded histories.", "anchors": ["src/oresat_adcs/classes/observers.py:DiscretePositionKalman.propagate"]}
{"id": "C73", "title": "Bang-bang torquers have a dead band that holds full positive moment", "statement": "With bang_bang on, as long as every component of the requested magnetic moment stays below 0.3 in magnitude the controller commands +max_m of the third torquer on all three axes at every call, so the torque produced does not depend on the torque requested.", "quantifier": "all histories, fields and torques inside the band", "why_tests_cant": "Unbounded histories.", "anchors": ["src/oresat_adcs/classes/controller.py:MagnetorquerController.actuator_commands", "src/oresat_adcs/classes/controller.py:MayhewTrigger"]}
{"id": "C74", "title": "Tracking a moving reference: the acceleration feed-forward has the wrong sign", "statement": "For a moving reference the closed-loop error energy obeys V' = -gamma |dw|^2 - 2 dw.R(e) rate_cmd_dot: with rate_cmd_dot zero it dissipates, with a non-zero rate_cmd_dot the feed-forward is subtracted where it should be added, and a satellite exactly on the reference accelerates at -rate_cmd_dot.", "quantifier": "all states, references and gains", "why_tests_cant": "A test samples finitely many float tuples; the law is an identity/inequality over all of them and over all compositions.", "anchors": ["src/oresat_adcs/classes/controller.py:ReactionWheelsController.tracking"]}
{"id": "C75", "title": "Wheel control depends on an environment method that does not exist", "statement": "Every wheel command path (tracking, track_and_desaturate, induce_bbq_roll_attitude, point_and_stare) reads environment.sun_vector, which neither environment class defines, and raises AttributeError in every state; with the method supplied, an instrument with fewer than two bounds or flags raises IndexError in every state, and well-formed instruments always yield a control law.", "quantifier": "all states, references and instrument sets", "why_tests_cant": "Universal failure over all states.", "anchors": ["src/oresat_adcs/classes/controller.py:ReactionWheelsController.tracking", "src/oresat_adcs/classes/controller.py:ReactionWheelsController.allowable_zone", "src/oresat_adcs/classes/environment.py:AdcsEnvironment"]}
{"id": "C76", "title": "point_and_stare points the boresight and rotates the rate twice", "statement": "The attitude commanded by point_and_stare is a unit quaternion carrying the boresight to the target unless the target is exactly behind (then it is the zero quaternion); the rate reference is the true angular velocity of the line of sight to a target fixed in inertial space; but it is already in the body frame and tracking rotates it again by the attitude error, so it is right only when that rotation leaves it fixed (witness).", "quantifier": "all positions, velocities, attitudes and targets", "why_tests_cant": "A test samples finitely many float tuples; the law is an identity/inequality over all of them and over all compositions.", "anchors": ["src/oresat_adcs/classes/controller.py:ReactionWheelsController.point_and_stare", "src/oresat_adcs/classes/controller.py:ReactionWheelsController.acquire_target"]}
{"id": "C77", "title": "KalmanFilters removes the gyro bias twice", "statement": "KalmanFilters.output subtracts the estimated gyro bias from the rate and stores the result, and propagate hands it to the attitude filter, which subtracts the bias again: the attitude is propagated with the reading less twice the bias, which equals the filter's own rate estimate only when the bias estimate is zero; a body at rest with a perfectly known bias is propagated as if turning at minus the bias.", "quantifier": "all readings, filter states and steps", "why_tests_cant": "A test samples finitely many float tuples; the law is an identity/inequality over all of them and over all compositions.", "anchors": ["src/oresat_adcs/classes/observers.py:KalmanFilters.output", "src/oresat_adcs/classes/observers.py:KalmanFilters.propagate", "src/oresat_adcs/classes/observers.py:DiscreteAttitudeStartrackerKalman.propagate"]}
{"id": "C78", "title": "ecef_to_lla is accurate everywhere above -10 km", "statement": "For every geodetic latitude, longitude and height of at least -10 km, with no upper limit, ecef_to_lla of the textbook WGS-84 position returns (never raising) the latitude to within 2e-14 degrees, the height to within 3e-23 times the distance from the Earth's centre and, off the poles, exactly the longitude (exact arithmetic).", "quantifier": "all latitudes, longitudes and heights >= -10 km", "why_tests_cant": "The claimed accuracy is below float resolution and must hold at every point.", "anchors": ["src/oresat_adcs/functions/frame.py:ecef_to_lla"]}
{"id": "C79", "title": "The linear-quadratic gain is exact, optimal and stabilising for its design model", "statement": "For every invertible inertia, sample time and non-zero weights, the matrices given to the Riccati solver are the exact sampled system of e'=w/2, J w'=u (the matrix exponential series ends); if the solver meets its contract then the gain exists, no input sequence of any length costs less than the feedback, and every motion of the loop dies out geometrically; a zero weight or singular inertia raises. The Riccati equation has exactly one solution for every non-zero sample time (none for zero), so the gain is the same for every correct solver.", "quantifier": "all inertias, sample times, weights, initial states, input sequences", "why_tests_cant": "Infinite-horizon optimality over all input sequences.", "anchors": ["simulation/ADCS_Discrete_State_Space_Calculator.py:get_gain_matrix"]}
{"id": "C80", "title": "The error given to the controller moves against the design model", "statement": "Along every motion of the body the vector part of quat_error(target, q) moves at -1/2 (in inertial axes) where the gain is designed for +1/2 (in body axes), so for every gain that makes the design model's motions die out - the LQR gain included - the linearised true loop at the target has a real mode growing geometrically.", "quantifier": "all motions, inertias, sample times and stabilising gains", "why_tests_cant": "An eigenvalue claim over all stabilising gains.", "anchors": ["simulation/Quaternions.py:quat_error", "simulation/ADCS_Discrete_State_Space_Calculator.py:get_gain_matrix", "simulation/FlightSoftwareModule.py:FlightSoftware.quaternion_controller"]}
{"id": "C81", "title": "A slew from rest goes the long way round", "statement": "For a body turning about an axis that is an eigenvector of the gains, from rest, with the target less than a full turn ahead, under the continuous control torque the error never gets below its initial value and the body settles a full turn before the target (error 2 pi); such a motion exists for every start.", "quantifier": "all axes, gains, inertias, starts and times", "why_tests_cant": "A convergence claim about all trajectories for all time.", "anchors": ["simulation/FlightSoftwareModule.py:FlightSoftware.UpdateState", "simulation/FlightSoftwareModule.py:FlightSoftware.quaternion_controller", "simulation/FlightSoftwareModule.py:FlightSoftware.check_hemi", "simulation/Quaternions.py:quat_error"]}
{"id": "C82", "title": "Wheel torques give the wanted body torque unless a wheel saturates", "statement": "For wheels that span space, the reaction of the commands of convert_torque_to_wheels is the torque asked for and no smaller commands achieve it; the simulation's wheels span space; feasible commands reach the body unchanged; but saturated commands are cut one by one, so the torque on the body then points elsewhere.", "quantifier": "all wheel geometries, torques and speeds", "why_tests_cant": "A test samples finitely many float tuples; the law is an identity/inequality over all of them and over all compositions.", "anchors": ["simulation/FlightSoftwareModule.py:FlightSoftware.convert_torque_to_wheels", "simulation/FlightSoftwareModule.py:FlightSoftware.check_torque_vals", "simulation/ADCS_Simulation_Basilisk.py"]}
{"id": "C83", "title": "Nadir-pointing quaternion", "statement": "For every non-zero position and body axis get_nadir_pointing_quaternion is a unit quaternion that turns the body axis to the direction of the Earth's centre, exactly and by the least angle unless they are within 1e-8 of parallel or opposite, and then to within 2e-8; only the directions of the arguments matter.", "quantifier": "all positions and axes", "why_tests_cant": "A test samples finitely many float tuples; the law is an identity/inequality over all of them and over all compositions.", "anchors": ["simulation/ADCS_Simulation_Basilisk.py:get_nadir_pointing_quaternion"]}
{"id": "C84", "title": "One call and every history of UpdateState", "statement": "Every call with its three messages written succeeds, appends the unit error with non-negative scalar part, writes four torques within the limit whose reaction is the controller's torque when feasible, and changes the target exactly when the attitude is the target's and the rate is exactly zero; over every history the target is the identity until it becomes the 270 degree rotation about y, and never changes again; a missing message raises.", "quantifier": "all states, messages and histories", "why_tests_cant": "Unbounded histories.", "anchors": ["simulation/FlightSoftwareModule.py:FlightSoftware.UpdateState", "simulation/FlightSoftwareModule.py:FlightSoftware.command_wheel_torques"]}
{"id": "C85", "title": "The tracking controller converges to a fixed target", "statement": "In the closed loop of ReactionWheelsController.tracking with the rigid body, the attitude and the rate converge to a fixed target attitude at rest exponentially, at a rate that depends only on the gains and the hysteresis width, from every state whose energy is below 2 alpha (1 + hw); the trigger then never flips; in particular from rest in every attitude, for every positive damping and frequency, whatever the trigger's memory was.", "quantifier": "all satellites with spanning wheels, gains, targets, starts and times; no external torque, no wheel saturated, no instrument to protect", "why_tests_cant": "An exponential bound for all time on all trajectories.", "anchors": ["src/oresat_adcs/classes/controller.py:ReactionWheelsController.tracking", "src/oresat_adcs/classes/controller.py:MayhewTrigger"]}
{"id": "C86", "title": "Orbital energy and momentum", "statement": "With low-fidelity gravity the orbital energy of the integrated equations changes exactly by the power of drag and sunlight and the angular momentum by their moment; without those forces energy, momentum and eccentricity vector are constant and the path is the conic they describe. With high-fidelity gravity only the momentum about the Earth's axis keeps this law: the acceleration has no potential at all, so energy drifts by a stated amount.", "quantifier": "all satellites, states, commands, clocks and times", "why_tests_cant": "Laws of every trajectory of a differential equation; a numerical run cannot tell drift from truncation error.", "anchors": ["src/oresat_adcs/configuration/environment.py:gravity_accel", "src/oresat_adcs/configuration/environment.py:hi_fi_gravity", "src/oresat_adcs/classes/dynamics.py:Dynamics.vector_field", "src/oresat_adcs/classes/dynamics.py:Dynamics.env_F_and_T"]}
{"id": "C87", "title": "normalize is accurate in binary64", "statement": "For every array of at most 100 finite binary64 numbers whose exact norm lies between 2^-450 and 2^500, normalize as computed in binary64 (squares, running sum, square root, division, each rounded) returns finite components, each equal to the exactly normalised component to (n+7)/2 units of 2^-53 relative, and the exact squared norm of the result is 1 within (n+8) 2^-53 (12 units for a quaternion). The same holds for any other way of summing whose result is within n+2 units of the exact sum of squares. Outside that range the claim is false: a finite quaternion of norm 2^600 is turned into the zero quaternion, and one of norm 2^-600 is returned unnormalised.", "quantifier": "all binary64 arrays of up to 100 components with norm in [2^-450, 2^500], all binary64 quaternions and 3-vectors in that range, all summation results within the stated accuracy", "why_tests_cant": "The rounding errors of every quaternion are different; a test compares a few with a tolerance and says nothing about the worst case or about where the function stops working.", "anchors": ["src/oresat_adcs/functions/vector.py:normalize", "src/oresat_adcs/classes/dynamics.py:update"]}
{"id": "C88", "title": "The attitude gain respects the satellite's symmetries and has the margins the stability analysis looks for", "statement": "The linear-quadratic gain that get_gain_matrix computes commutes with every rotation and reflection that the inertia commutes with. So about every principal axis both gain blocks act as positive multiples of that axis, the rate gain exceeding Ts/4 times the attitude gain, and slews about principal axes behave as C81 says. When the body axes are principal axes the gain blocks are diagonal, the three axes do not interact, and the loop (a s + b)/s^2 that axis_margins forms for each axis is that axis's own dynamics; each has exactly one gain crossover, exactly one phase margin, between atan(w Ts/2) and 90 degrees, no phase crossover, and stays stable for every loop gain k > 0, i.e. an infinite gain margin.", "quantifier": "all invertible inertia matrices, sample times, weights, principal axes, orthogonal symmetries, frequencies and loop gains, every solver that solves the satellite's Riccati equation", "why_tests_cant": "The script prints the margins of one inertia matrix at one sample time; that the gain never couples the axes and never has a phase crossover is a statement about all of them.", "anchors": ["simulation/Stability Analysis.py:axis_margins", "simulation/ADCS_Discrete_State_Space_Calculator.py:get_gain_matrix"]}
{"id": "C89", "title": "The simulated attitude of a body in steady spin keeps the true axis and lags by a fifth-order angle per step", "statement": "While the body rate is constant (W rad/s about the unit axis n), the true attitude is the initial one followed by a turn of W t about n. N simulator updates of length dt (Runge-Kutta step, then normalisation of the attitude) leave rate and wheel speeds exactly unchanged and give the initial attitude followed by a turn about the same axis n by N (W dt - lag), with one lag per step that does not depend on N and satisfies (W dt)^5/3856 <= lag <= (W dt)^5/1904. So the simulated body turns about the right axis, never ahead of the truth, and its angle after the time T is behind by at most T W (W dt)^4 / 1904. This applies to the code's own vector field whenever no external torque acts, n is a principal axis, the wheel momentum lies along n and the wheels are not accelerated.", "quantifier": "All unit axes n, all rates and steps with 0 <= W dt <= 2 rad, all numbers of steps N, all starting attitudes and wheel speeds, all vector fields with the code's kinematics and no angular acceleration in that spin (in particular vector_field for every satellite meeting the conditions); exact real arithmetic.", "why_tests_cant": "A test compares a few spins with a tolerance; it cannot show that the axis is exact, that the lag has one sign and the same value in every step, or bound it for all rates, axes and durations.", "anchors": ["src/oresat_adcs/classes/dynamics.py:289-319", "src/oresat_adcs/classes/dynamics.py:342-382", "src/oresat_adcs/system/simulator.py"]}
{"id": "C90", "title": "FLAE returns a near-optimal attitude for noisy measurements, or raises", "statement": "Given measurements with non-negative weights adding up to one, any noise, and a sole optimum v of Wahba's weighted least-squares loss whose last component is not zero: the Newton iteration in flae stays between the largest eigenvalue and one and cannot pick another root; the elimination divides by three non-zero numbers; and if flae returns, it returns a unit quaternion whose loss exceeds the least possible loss by at most 3.0045e-5 (1/v_z^2 - 1). If attitudes half a turn from v lose at least g more and the least loss is at most g^3/40, flae does return, with excess loss at most 1e-8/g^3 (1/v_z^2 - 1) and squared sine of half the attitude error at most 1e-8/g^4 (1/v_z^2 - 1). Without the condition on the least loss it may raise RuntimeError although the optimum is sole.", "quantifier": "every number of measurements, all weights and vectors, every optimum", "why_tests_cant": "The claim compares with every attitude and every noise pattern; the failures are a quartic whose roots crowd and a pivot that vanishes only for particular optima, and tests use a few nearly exact measurements.", "anchors": ["src/oresat_adcs/functions/attitude_estimation.py:51-127"]}
{"id": "C91", "title": "The attitude filter's covariance settles at a closed-form steady state, above the optimal one", "statement": "When the star-tracker filter is propagated by the same dt > 0 with estimated rates along one body axis n and measured after each propagation, and n is an eigenvector of the blocks of the initial covariance (every n is, for a new filter), the variances and the cross covariance of attitude and gyro-bias error about n converge geometrically, at a rate depending on dt only, to a closed form in dt and the four noise constants, whatever the measured attitudes and the speed of rotation. The process noise the filter adds has the cross covariance of the wrong sign: at zero estimated rate it is the exact integral of the gyro and drift noise plus 2 DRIFT_VAR dt^2 times the product of the components (and a truncated 1/3). The steady attitude and bias variances are therefore strictly larger than with the exact noise; the attitude variance stays below the sensor's.", "quantifier": "every dt > 0, axis, spin profile, sequence of measured attitudes and start covariance with the axis as eigenvector", "why_tests_cant": "Convergence is a statement about unbounded runs from any start; a wrong sign in a noise covariance never raises and only biases the gain.", "anchors": ["src/oresat_adcs/classes/observers.py:23-46", "src/oresat_adcs/classes/observers.py:48-64", "src/oresat_adcs/classes/observers.py:75-158"]}
{"id": "C92", "title": "The LQR design with integrators is optimal, stable and removes steady errors, and cannot be used by the flight software", "statement": "With use_integrator = True the matrices handed to the Riccati solver are the exact one-sample flow of e' = w/2, w' = J^-1 u, z' = -e; the Riccati equation has exactly one positive semidefinite solution for every invertible inertia, nonzero limits and nonzero sample time, and the gain computed from it is the optimal one, makes every motion of plant and integrators die out geometrically and does not depend on the solver. Under a constant disturbance torque d a loop with integrators that is stable in this sense has e and w converge to zero, while the gain without integrators leaves an error e with Kq e = d. But the controller multiplies the 3x9 gain with the six-entry state, so every torque computation raises ValueError; and with the error quaternion's true sign (C80) every such gain is unstable.", "quantifier": "every invertible inertia, sample time, limits, correct solver, initial state and constant torque", "why_tests_cant": "Existence and uniqueness of a Riccati solution, convergence and optimality over all input sequences are not finite checks; the integrator branch is dead in the simulation (the flag is a constant False), so no run reaches the shape error.", "anchors": ["simulation/ADCS_Discrete_State_Space_Calculator.py:5-43", "simulation/ADCS_Discrete_State_Space_Calculator.py:45-88", "simulation/FlightSoftwareModule.py:39-42", "simulation/FlightSoftwareModule.py:189-193"]}
{"id": "C93", "title": "The simulated rotation converges to the true rotation with order four", "statement": "For every satellite with invertible inertia, wheel accelerations, duration and bound on the initial rate and wheel momentum there are constants C and r such that for every true rotation (the attitude turns at the body rate, and the inertial angular momentum of body and wheels changes by the external torque), every step dt <= r and every number of steps within the duration, a simulation started within eta of the true attitude and rate, whose environment torque and the true torque both stay within delta of a constant, ends within C (eta + dt^4 + delta) of the true attitude and rate, with unit attitude and exact wheel speeds; with an exact start and torque the error is at most C dt^4.", "quantifier": "every satellite, torque, wheel acceleration, initial state, step size, number of steps and true motion", "why_tests_cant": "A test compares a few runs with a reference of unknown error; the order of convergence and the stability of the scheme together with the renormalisation are statements about all small steps and all motions, and a wrong weight in the scheme or a wrong sign of the gyroscopic term only lowers the order or changes the limit.", "anchors": ["src/oresat_adcs/classes/dynamics.py:289-319", "src/oresat_adcs/classes/dynamics.py:342-382"]}
{"id": "C94", "title": "Where the simulation is defined: coordinates exist outside the Earth, the field's exact domain, and steps that cannot raise", "statement": "Every point on or outside the WGS-84 ellipsoid is the place of some geodetic latitude, longitude and height, and ecef_to_lla returns them. The vector field has a value exactly when there are enough coil currents, wheel accelerations and wheel speeds, the clock is a JulianClock and the altitude is in [250 km, 500 km); otherwise it raises IndexError, TypeError or UnboundLocalError accordingly. For every satellite, commands, bounds on speed, rate and wheel speeds and range of distances inside (6628138 m, 6856752 m) there is a step size below which one update of the simulation never raises from any such state, so a run raises only after leaving the range or the calendar; there is also a time during which every run from such a state goes through. Closer than 6606752 m or farther than 6878138 m every step raises UnboundLocalError.", "quantifier": "every point, satellite, command list, clock, state, step size and number of steps", "why_tests_cant": "A test shows that the states tried do not raise; that no state of a whole range raises at any of the four stages of a step, and that coordinates exist for every point outside the ellipsoid, are statements about continua, and the failures sit at the edges of the density table.", "anchors": ["src/oresat_adcs/functions/frame.py:94-146", "src/oresat_adcs/classes/dynamics.py:45-66", "src/oresat_adcs/classes/dynamics.py:289-319", "src/oresat_adcs/classes/dynamics.py:342-382", "src/oresat_adcs/configuration/environment.py:285-307"]}
{"id": "C95", "title": "The stability analysis with a delay: gain crossover unchanged, phase margin less by the delay's lag, first phase crossover and exact gain margin", "statement": "With delay_s = T > 0 axis_margins hands ct.margin the loop (a s + b) / s^2 times the fourth-order Pade approximation of the delay (without delay, or with one that is not positive, the loop alone). The approximation has gain one at every frequency and lags by a phase that increases with the frequency, at most T w and less by no more than (T w)^9 / 25401600. So the gain crossovers are those of the loop without delay and the phase margin is less by the lag. If T < a / b there is a first phase crossover wp < 2.1 / T, no closed-loop pole is on the imaginary axis for any loop gain below the gain margin gm, at gm there are poles at +-j wp, and gm > 1 exactly when the gain crossover comes before wp, in which case the phase margin is between 0 and 90 degrees. If T >= a / b the phase is beyond -180 degrees at every frequency up to 1 / T. The gain computed by get_gain_matrix for principal axes satisfies T < a / b for the delay of half a sample.", "quantifier": "every inertia, gain, delay, frequency and loop gain", "why_tests_cant": "The script is run for one satellite without delay; the margins for every delay, and that the approximation loses phase like a delay and changes no gain, are identities and estimates over all frequencies, and a wrong coefficient or sign would still give plausible numbers.", "anchors": ["simulation/Stability Analysis.py:5-43"]}
{"id": "C96", "title": "The simulated orbit converges to the true orbit with order four", "statement": "For every least distance rho from the centre of the Earth, bound M on distance and speed, and duration there are constants C and r such that for every true orbit in these bounds (position changes by velocity, velocity by an acceleration within delta of the attraction by a point mass), every step dt <= r and every number of steps within the duration, a simulation of any satellite started within eta of the true position and velocity, whose total force per mass stays within delta of the attraction at every state it visits, ends within C (eta + dt^4 + delta) of the true position and velocity.  With the low-fidelity gravity the only disturbances are the air and the sunlight, so with an exact start the error is at most C (dt^4 + delta) when these forces are at most delta times the mass.", "quantifier": "every satellite, orbit away from the centre, initial state, step size, number of steps and clock", "why_tests_cant": "A test compares a few runs with a reference orbit of unknown error; the order of the scheme for the two-body field and its stability are statements about all small steps and all orbits, and a wrong stage, weight or exponent only lowers the order or changes the limit.", "anchors": ["src/oresat_adcs/classes/dynamics.py:227-245", "src/oresat_adcs/classes/dynamics.py:289-319", "src/oresat_adcs/classes/dynamics.py:342-382"]}
{"id": "C97", "title": "Every start has exactly one true motion, and the simulation converges to it", "statement": "Through every position and velocity with non-zero angular momentum there passes an orbit about the attracting point mass that is defined for all time; on every duration it is the only one with that start, and there are constants C and r such that every simulation of any satellite started there with steps dt <= r, low-fidelity gravity and air and sunlight forces of at most delta per mass ends within C (dt^4 + delta) of it.  For every satellite with invertible inertia, every unit attitude and every rate, wheel speeds, wheel accelerations and external torque that changes at a bounded rate there is exactly one rotational motion on every duration; for a constant torque every simulation with steps dt <= r ends within C dt^4 of it.", "quantifier": "every initial position and velocity with angular momentum, every unit attitude and rate, satellite, torque history, duration, step size and number of steps", "why_tests_cant": "A test can only compare a run with another run; that there is one motion to be right about, for every start and duration, and that the runs approach it, cannot be observed from finitely many runs.", "anchors": ["src/oresat_adcs/classes/dynamics.py:227-245", "src/oresat_adcs/classes/dynamics.py:289-319", "src/oresat_adcs/classes/dynamics.py:342-382"]}
{"id": "C98", "title": "Quaternion products and changes of coordinates are accurate in binary64", "statement": "Computed in binary64, every component of product(a, b) is finite and within 4.01 u |a||b| (u = 2^-53, plus 5 half smallest subnormals) of Hamilton's product of the numbers given, if |a||b| is at most 2^1000.  sandwich(q, v) and sandwich_opp(q, v) are within 12.1 u |q|^2 |v| per component of the exact matrix of the frame (and its transpose) applied to v.  For an attitude as normalize returns it a vector keeps its length and returns from a change of coordinates there and back, in either order, within 58 u |v| per component, and the error of an attitude to itself is the identity within 17 u.  Associativity, which the docstring states as an equality, holds up to 24.2 u |a||b||c| per component but not exactly.", "quantifier": "all finite binary64 quaternions and vectors in the stated ranges", "why_tests_cant": "A test compares with a tolerance at a few points; the bound holds for every input including ones with cancellation, overflow margins and subnormals, and the rounding of a different formula would still pass.", "anchors": ["src/oresat_adcs/functions/quaternion.py:42-132"]}
{"id": "C99", "title": "Between measurements the position estimate keeps its plane and spirals on a centred ellipse", "statement": "n calls of DiscretePositionKalman.propagate with the same dt keep the orbital plane of the estimate, multiply its angular momentum and an oscillator form (rate^2 |p|^2 + drag p.v + (1 - drag dt/2 - 0.1666 rate^2 dt^2) |v|^2) by exactly D^n, with D = 1 - drag dt + 0.0834 rate^4 dt^4, whatever the estimate.  So the estimate moves on an ellipse about the centre of the Earth, not with the centre as focus; for dt <= 10.579 s it shrinks (without measurements to the centre of the Earth), from 10.58 s on it grows without bound.  On the circular orbit for which the constant is made, radius r with rate^2 r^3 = mu, the estimate stays within n (0.19 (rate dt)^3 + 1.1 drag dt) r of the true two-body position and the same fraction of the speed, for every n.", "quantifier": "every filter state, dt up to 1000 s and number of calls; every true orbit of that radius", "why_tests_cant": "Tests run a few steps; the exact factor over any number of calls and the threshold where the scheme starts to gain energy are not visible in a short run, and a wrong coefficient of the transition matrix changes them only in the ninth digit.", "anchors": ["src/oresat_adcs/classes/observers.py:188-214", "src/oresat_adcs/classes/observers.py:265-289", "src/oresat_adcs/classes/observers.py:310-318"]}
{"id": "C100", "title": "A simulated flight goes through to its end and stays close to the true orbit", "statement": "Take any starting position and velocity whose energy and angular momentum keep the two-body orbit between two distances strictly inside the band where the simulation is defined (C94), any length of time, and any satellite whose inertia is positive definite.  The true orbit exists and stays between the distances.  If air and sunlight accelerate the satellite by at most delta in that band (which holds for every shape once the mass is large enough), with delta below a bound that depends on the orbit and the time only, then there is a longest step such that every simulation with shorter steps, from every attitude, with rates and wheel speeds within given bounds and any commanded wheel accelerations and torquer currents, runs through all its steps without an exception, and ends within C (dt^4 + delta) of the true position and velocity.  The body rates of the simulation stay bounded on the way although its integration does not conserve energy.", "quantifier": "every orbit in the band, duration, satellite, command, starting world and step up to a bound", "why_tests_cant": "A test runs one orbit with one step; it cannot show that no satellite, attitude or command makes a late step leave the band, overflow the rates or lose the attitude, and the property is about the whole run rather than about a step.", "anchors": ["src/oresat_adcs/classes/dynamics.py:289-319", "src/oresat_adcs/classes/dynamics.py:342-362", "src/oresat_adcs/classes/dynamics.py:364-400"]}
{"id": "C101", "title": "The phase margin of the analysis tells whether the loop with a true delay is stable, and half a sample is always within it", "statement": "The analysis replaces the delay by a rational function.  With a true delay of T seconds an axis moves by z'' = - a z' - b z with the right side T late.  Every wave exp (x t) (c cos (y t) + d sin (y t)) that is a motion of it dies out if T w is less than atan (a w / b), w being the gain crossover; if equal, the loop swings with the frequency w for ever; if greater, some oscillation grows.  So the sign of the phase margin that axis_margins reports is right about the true delay but for an error of (T w)^9 / 25401600 rad.  For the gain that the design computes, whatever the sampling time and the weights, the damping ratio about every principal axis is over 0.7 and any delay of up to half a sample is within the margin.", "quantifier": "every delay, gains and wave; every inertia with the principal axis, sampling time and weights", "why_tests_cant": "The analysis prints margins of an approximation for one inertia and one gain; whether they mean stability of the system that has the delay itself, which has infinitely many modes, cannot be sampled.", "anchors": ["simulation/Stability Analysis.py:5-44", "simulation/ADCS_Discrete_State_Space_Calculator.py:45-88"]}
{"id": "C102", "title": "A simulated flight follows the true motion in position, velocity, attitude, body rate and wheel speeds to its end", "statement": "In the setting of C100, let in addition the torques on the satellite be within delta of a constant torque in the band.  The true motion of orbit, attitude, rate and wheel speeds from the starting point exists for all times.  If delta is small enough there is a longest step such that every simulation with shorter steps runs through all its steps without an exception and, after every step, its position, velocity, attitude quaternion and body rate are within C (dt^4 + delta) of the true ones and its wheel speeds are exact, with C independent of the step, of delta and of the number of steps within the given time.", "quantifier": "every orbit in the band, duration, satellite, constant torque, command, starting attitude and rate, and step up to a bound", "why_tests_cant": "A test compares one run with one reference integration; that attitude and orbit, coupled through the forces, both stay by the true motion for every satellite and command needs a bound on the growth of all errors together.", "anchors": ["src/oresat_adcs/classes/dynamics.py:289-319", "src/oresat_adcs/classes/dynamics.py:342-362", "src/oresat_adcs/classes/dynamics.py:366-400", "src/oresat_adcs/system/simulator.py"]}
{"id": "C103", "title": "The star-tracker filter finds attitude and gyro bias of a body at rest, but not of a body that turns", "statement": "Let attitude, rate, bias and estimates all be about one body axis and let the star tracker be perfect.  For every step and every starting covariance with that axis there is a neighbourhood from which, if the body does not turn and the gyro shows a constant bias, the errors of estimated attitude and estimated bias tend to zero geometrically; from the filter's own starting covariance the neighbourhood and the rate are the same for all axes and attitudes.  For a body that turns steadily this should hold as well.  It does not: if the body turns by an angle per step that is not a multiple of a full turn, attitude and bias estimates do not both tend to the truth, whatever the start.", "quantifier": "every step, axis, attitude, bias, rate, starting covariance and estimate", "why_tests_cant": "Whether errors die out is about infinitely many cycles and a neighbourhood of starting values; a run of a simulation against noisy sensors shows an error of some size and not that it cannot go away.", "anchors": ["src/oresat_adcs/classes/observers.py:48-73", "src/oresat_adcs/classes/observers.py:75-158"]}
{"id": "C104", "title": "A star-tracker fix brings the estimate nearer to the measured attitude", "statement": "After any history of forward steps and fixes from the start state, an exact reading of an attitude, in either of its two quaternions, should leave the estimate nearer to that attitude than it was, unless it was there already.  This holds for the quaternion in the hemisphere of the estimate.  For the other one, which stands for the same attitude, the opposite holds: with any error of up to 120 degrees the fix leaves the estimate further from the attitude.", "quantifier": "every history, reading and covariance the filter can have; estimates with norm up to 6/5", "why_tests_cant": "The simulated star tracker reports the quaternion of the simulated state, whose sign never jumps, so no test of the simulation sees the other sign; and a statement about every history and covariance cannot be sampled.", "anchors": ["src/oresat_adcs/classes/observers.py:48-73", "src/oresat_adcs/functions/quaternion.py:117-132"]}
{"id": "C105", "title": "Detumbling brings the satellite to rest", "statement": "The docstring of detumble calls the law globally asymptotically stable.  With the wheels at rest and the commanded magnetic moment applied, the body rate of every motion should tend to zero.  It does in every continuous field whose direction keeps changing: if on each window of length T the field strays from every fixed direction by a mean squared sine of at least c/T, the squared momentum falls by the factor 1 - c k / (1 + k^2 T^2) per window; every periodic field that takes two different directions is such a field.  It does not in a field that keeps to one line of inertial space: there the momentum along that line never changes.", "quantifier": "every inertia matrix with an inverse, initial attitude and rate, continuous field history, motion and time", "why_tests_cant": "Convergence is a statement about infinite time and all field histories; a simulation samples one orbit and a few hours.", "anchors": ["src/oresat_adcs/classes/controller.py:93-117", "src/oresat_adcs/classes/controller.py:127-152"]}
{"id": "C106", "title": "The safe-mode roll approaches its target and check recognises it", "statement": "no_q_bbq_roll should never let the momentum get further from its two aims (the wanted spin about body z, and the same momentum along the ecliptic pole), and check should return a small number only near them.  The squared distance changes at the rate -2 k |e x B|^2/|B|^2 plus twice the product of the body aim with w x Jw; so it never grows, whatever the state and field, exactly when the inertia matrix is diag(a, a, c).  If the momentum is at least the wanted one, a check value eps bounds the distance from each aim by sqrt(m eps) + eps/2.  Without that condition it says nothing: a satellite at rest with body z opposite to the pole has check value 0 and stays at rest for ever.", "quantifier": "every satellite, state and field", "why_tests_cant": "The sign of a derivative in all states, and an equivalence with a symmetry of the inertia matrix, cannot be sampled; and the states where check is wrong form a small set that a simulation started from a tumble does not meet.", "anchors": ["src/oresat_adcs/classes/controller.py:71-91", "src/oresat_adcs/classes/controller.py:154-182"]}
{"id": "C107", "title": "Sampled tracking converges when the control period is short enough", "statement": "The flight software computes a wheel command once per control period and the simulator holds it for the whole period, while C85 lets the command follow the state continuously.  With the command held, tracking should still bring attitude and rate to a fixed target: for all gains, trigger band, bound on the inverse inertia, bound on the total momentum and bound on the energy below that of a turn at the edge of the band, there is a longest period such that with every shorter period the trigger never flips and the error falls as 12 exp(-lam t).  From rest in any attitude a controller fresh from its constructor has such a period, and only its first call can flip the trigger.  With a period longer than 2/gamma = 1/(damping freq) it should not be used: without total momentum, every motion whose rate exceeds alpha h/(gamma h - 2) turns ever faster, by the factor gamma h - 1 per period.", "quantifier": "every satellite with spanning wheels and invertible inertia, gains, target, start, period below the bound (or above 2/gamma) and motion under held commands without external torque or saturation", "why_tests_cant": "A simulation samples some periods and starts; existence of a period that is safe for all starts below an energy, and growth for ever above 2/gamma, quantify over all of them and over infinite time.", "anchors": ["src/oresat_adcs/classes/controller.py:ReactionWheelsController.tracking", "src/oresat_adcs/classes/dynamics.py:384-420"]}
{"id": "C108", "title": "Tracking under disturbance torques: bounded error, and no less than the torque asks for", "statement": "The tracking law has no integral term, and drag, gravity gradient and residual magnetic torques act all the time.  Under any external torque history whose acceleration J^-1 T stays below a bound fixed by gains, band and starting energy, the trigger should never flip and the error should fall exponentially to a size proportional to the square of that acceleration (in the energy).  That size cannot be made zero: under a constant torque, however long one waits, alpha |e_v| + gamma |w| comes back to at least half of |J^-1 T|; and there are motions parked off the target for ever while a wheel spins up.", "quantifier": "every satellite with spanning wheels and invertible inertia, gains, target, start below the energy bound, torque history below the bound, and time", "why_tests_cant": "All torque histories and infinite time: a simulation samples one torque history, and a bound that holds after all transients is not visible in a finite run.", "anchors": ["src/oresat_adcs/classes/controller.py:ReactionWheelsController.tracking", "src/oresat_adcs/classes/dynamics.py:289-319"]}
{"id": "C109", "title": "The sun-avoidance law keeps instruments out of their forbidden cones", "statement": "allowable_zone says of itself: Experimental control law for avoiding pointing at the sun. Seems to work ok but needs proof.  The wanted proof: whatever the start outside the cones, the instruments, the resting target and a bounded external torque, as long as the body rate stays bounded no watching instrument ever reaches the edge of a cone it must stay out of (or in), even when the target attitude itself lies inside the cone; the only exception is a target that puts the sun exactly on an edge.  Two things are not true: an instrument whose bound is 90 degrees is never alerted while it is on the allowed side, so it gets no avoidance at all; and with the command held between calls, however short the period, a fast enough turn carries the camera straight across the sun.", "quantifier": "every satellite with spanning unsaturated wheels and invertible inertia, list of sun-watching instruments with positive gains and alert thresholds, sun direction, target attitude, motion with bounded rates under the law and bounded external torques, switching pattern of alerts and trigger that does not accumulate, and time", "why_tests_cant": "The barrier is infinite only at the edge itself, and the law is not dissipative for its own potential (C55), so finitely many simulated slews, each from one start, cannot show that no start, torque history or set of instruments gets through.", "anchors": ["src/oresat_adcs/classes/controller.py:415-470", "src/oresat_adcs/classes/controller.py:348-413", "src/oresat_adcs/configuration/structure.py:SensitiveInstrument"]}
{"id": "C110", "title": "Dumping wheel momentum during the standby roll", "statement": "In standby the satellite keeps the barbecue roll with its wheels while the torquers empty the wheels (induce_bbq_roll_attitude with desaturate's current command). The attitude part is indifferent to the dumping: whatever moment the torquers make and whatever the field, the pointing and rate errors to a steadily turning reference vanish exponentially, at a rate fixed by the gains and the switching band alone, because the wheels are told to cancel the torquers' torque. The dumping part works exactly when the field turns: with the moment asked for, if the field as seen from space keeps changing direction (a period with two non-collinear directions is enough) and the reference rolls about a principal axis, the wheel momentum tends to the reference's, so the standby roll empties the wheels. It fails otherwise: a field that stays on one line leaves the momentum along that line for ever; the pyramid's momentum-free pattern of wheel speeds (-w1+w2-w3+w4) never changes, so wheels with zero momentum can still be spinning; and once distribute has turned the asked moment into currents, any negative component makes the torquers pile wheel momentum up instead.", "quantifier": "every satellite with spanning unsaturated wheels and invertible inertia, gains, switching band, field history, reference, wheel reference speeds, motion of the closed loop and time (currents: every state and torquer triple)", "why_tests_cant": "Dumping takes many orbits; a finite run sees the momentum shrink and cannot tell a field that turns slowly from one that keeps a direction, nor see the pattern of speeds that carries no momentum.", "anchors": ["src/oresat_adcs/classes/controller.py:119-125", "src/oresat_adcs/classes/controller.py:238-242", "src/oresat_adcs/classes/controller.py:266-283", "src/oresat_adcs/system/manager_class.py:52-55"]}
{"id": "C111", "title": "Every start has exactly one closed-loop motion", "statement": "The promises made about how the controlled satellite moves are not empty and do not depend on which motion one looks at. Tracking a fixed attitude: every start with a unit attitude and attitude and rate errors below the catching level, whatever the wheel speeds, position, velocity and continuous force, has a motion that obeys the tracking law from just before time 0 on for ever, any other such motion agrees with it in every quantity from time 0 on, and it converges exponentially. Standby roll: the same holds for track_and_desaturate with the moment desaturate asks for, for a reference turning about its own momentum and a field whose direction turns at a bounded rate; in a periodic field that does not stay on one line the mission's roll is followed, the code's command never raises, and the wheels are emptied. Detumbling: every start, however fast it tumbles, has exactly one motion under the detumbling law, for ever, and comes to rest in such a field.", "quantifier": "every controller with positive gains, spanning unlimited wheels, invertible inertia and no watching instrument, every start within the catching level (detumbling: every start), field with bounded turning rate, continuous force and time", "why_tests_cant": "A simulation shows one approximate trajectory; that an exact one exists for all time from every start and that no second one starts in the same state is a statement about a continuum.", "anchors": ["src/oresat_adcs/classes/controller.py:119-152", "src/oresat_adcs/classes/controller.py:238-242", "src/oresat_adcs/classes/controller.py:266-283", "src/oresat_adcs/classes/dynamics.py:313-317"]}
{"id": "C112", "title": "The clock's sidereal angle and Julian date are accurate in binary64", "statement": "For every valid date and time from 1900 to 2099, JClock's gmst_seconds computed in binary64 (every operation rounded) is within 1.07e-8 s of the sidereal-time formula evaluated exactly on the calendar date, and theta_gmst lies in [0, 2 pi) and is within 8e-13 rad of the exact angle modulo a whole turn, whatever pow the C library provides as long as it is within 4 units 2^-53. The same holds at every microsecond against exact arithmetic on the same formulas, so turning a position into the Earth's frame by the computed angle moves it by at most 8e-13 of its length. julian_date is within 2.85e-10 day (25 microseconds), never runs backwards, and tells apart instants at least 50 microseconds apart; instants 40 microseconds apart can get the same Julian date.", "quantifier": "every instant within a Julian century of J2000 and every accurate pow", "why_tests_cant": "The worst rounding error over six quadrillion microseconds cannot be found by sampling, and the remainder and the wrap at a full turn make the error discontinuous.", "anchors": ["src/oresat_adcs/classes/jday.py:292-311", "src/oresat_adcs/functions/frame.py:9-28"]}
{"id": "C113", "title": "The position filter converges on its fixes, but only near the altitude built into it", "statement": "DiscretePositionKalman, created as in the code and then called as propagate(dt), update(position, velocity) once per cycle of 0.5 to 1 s (any sequence of such steps), forgets a wrong start: if the true path stays above 6600 km radius and the start is off by at most E0 <= 9000 (m and m/s together), the error of the estimated position after k cycles is at most 10.06 c and that of the velocity 0.5204 c with c = 0.998^k E0 + (1 - 0.998^k) 500 W, where W bounds per cycle 1.5 times the position and 22 times the velocity by which the true motion departs from the filter's own equations of motion plus 0.1 times the position error and 2 times the velocity error of the fix. On a circular orbit of radius r, W is at most r (22.8 |1.28e-6 - mu/r^3| + 1.25e-11) plus the part of the fixes; at the radius with mu/r^3 = 1.28e-6 (about 400 km altitude) exact fixes bring the estimate to within 0.45 m and 0.025 m/s. On a circular orbit of radius 6870 to 6950 km the filter must not do worse than the fixes it is given.", "quantifier": "every start within the bound, every sequence of step lengths in [0.5, 1], every true path, every sequence of fix errors, every number of cycles", "why_tests_cant": "Convergence of the error over arbitrarily many cycles with varying steps, gains that depend on the estimate, and arbitrary disturbances is a statement about infinitely many trajectories.", "anchors": ["src/oresat_adcs/classes/observers.py:180-318"]}
{"id": "C114", "title": "Tracking on an estimated state: the pointing error is bounded by the estimation error, and a gyro bias is not forgotten", "statement": "The wheel controller never sees the true state: mission_input hands it the output of the filters and noisy sensors, whose quaternion need not even be a unit one.  If the state given to tracking is off by at most d (the quaternion's components together, the rate, the momentum of the wheels) and the external torque accelerates by at most p, with d + p below a bound fixed by gains, band, starting energy, inertia and momentum, the trigger should never flip and the error should fall exponentially to a size proportional to (d + p)^2 (in the energy); without external torque only the momentum at the start needs a bound.  That size cannot be made zero: with a constant bias b of the given rate, however long one waits, alpha |e_v| + (gamma + |b|) |w| comes back to at least half of gamma b.Jb / |Jb|; and a satellite that has come to rest points in the attitude with s alpha e_v = J^-1 (b x (J b + h)) - gamma b, which is never the target.", "quantifier": "all positive gains and bands, all satellites with spanning wheels and invertible inertia, all unit targets, all motions of the closed loop (all times), all given states within the bound, all biases", "why_tests_cant": "The given state is an arbitrary function of time: no finite set of noise sequences shows that none of them drives the loop away or flips the trigger.", "anchors": ["src/oresat_adcs/classes/controller.py:348-413", "src/oresat_adcs/classes/controller.py:19-62", "src/oresat_adcs/system/manager_class.py:27-48", "src/oresat_adcs/classes/observers.py:357-374"]}
{"id": "C115", "title": "The star-tracker filter finds attitude and gyro bias about all three axes, to within what its sensors are wrong by and the square of how fast the body turns", "statement": "While the satellite turns slowly or not at all, the attitude filter should find its attitude and the gyro's bias whatever the axes of the starting error: if between readings the satellite turns about any axis at a rate of at most r, gyro readings are within d of rate plus bias and star-tracker readings within d of the attitude (each component free to vary from reading to reading, the measured quaternion need not be a unit one), and start error, d and r are below a bound, then after k cycles the sum of attitude error and bias error should be at most K (rho^k times the starting error + d + r^2), with rho < 1 and constants that depend on dt and the starting covariance only.  With exact sensors and a body at rest both errors then tend to zero.  It holds in particular from the filter's own start state.", "quantifier": "all dt > 0, all starting covariances that are the same about every axis (the code's is), all attitudes, biases and starting errors of any direction within the bound, all sequences of readings within d and of rates within r, all numbers of cycles", "why_tests_cant": "The covariance is a 6x6 matrix that loses its symmetry between axes as soon as the estimate is off, and feeds back into the gain: convergence is a statement about infinitely many coupled cycles and all directions of error at once.", "anchors": ["src/oresat_adcs/classes/observers.py:33-73", "src/oresat_adcs/classes/observers.py:75-158"]}
{"id": "C116", "title": "Filter, controller, wheels and body together: pointing on the filter's own estimate settles to within the sensors' errors", "statement": "When the tracking controller is given the attitude filter's own estimate (its attitude, and the gyro reading less its bias), is called once per period and its command held in between, while the filter is stepped once per period with the gyro's mean reading and a star-tracker reading, the satellite should still come to rest at the target: with every sensor wrong by at most d and external torques at most d, and the start close enough, the errors of pointing, of rate, of the estimated attitude and of the estimated gyro bias should all be at most K (rho^k times the starting error + d) throughout the k-th period, between the calls too, with rho < 1, and the switching variable should never flip.  Such a run should exist from every start and for every sequence of sensor errors.", "quantifier": "all positive gains, all bounds on inertia, inverse inertia and momentum, all periods up to a bound that depends on these only, all starting covariances that are the same about every axis (the code's is), all satellites, targets, biases, starts within the bound, all sequences of sensor errors and torques within d, all times", "why_tests_cant": "A simulation shows one run; that the filter's transient, fed back through the controller and turned by the motion it causes, dies out for every direction of error, every bias and every sequence of noise is a statement about a coupled continuous and discrete system over infinite time.", "anchors": ["src/oresat_adcs/classes/controller.py:348-413", "src/oresat_adcs/classes/observers.py:33-158", "src/oresat_adcs/classes/observers.py:339-399", "src/oresat_adcs/classes/dynamics.py:289-319"]}
{"id": "C117", "title": "The daemon subtracts the gyro bias twice: what the controllers are told of the rate", "statement": "KalmanFilters.output stores the gyro reading less the estimated bias, and KalmanFilters.propagate hands that stored rate to the attitude filter, which subtracts the bias again.  The estimate the daemon gives its controllers should therefore be judged on what it does to the rate: for a satellite at rest with exact sensors, is the rate it is given zero in the end?  It is not.  An attitude filter that holds the true attitude and half the true bias stays there for ever, whatever its covariance, step sizes and number of steps per call.  From the filter's own start, with calls of one gyro step, attitude found and bias estimate converging to half the bias: with sensors wrong by at most d and a body turning at most at rate r the rate given to the controllers is off by half the bias up to K (rho^k times the starting error + d + r^2).", "quantifier": "all missions, clocks, position data, all step sizes (at least the loop's tolerance of 1 ms), all biases and starting attitudes within a bound, all sequences of sensor errors within d, all numbers of calls", "why_tests_cant": "A test that compares the estimated rate with the gyro sees a small difference either way; that the limit is exactly half the bias, from every start, is a statement about all infinite runs.", "anchors": ["src/oresat_adcs/classes/observers.py:357-372", "src/oresat_adcs/classes/observers.py:383-399", "src/oresat_adcs/classes/observers.py:143-158", "src/oresat_adcs/system/manager_class.py:107-134"]}
{"id": "C118", "title": "Several gyro steps per star-tracker reading: the attitude filter alone, and in the daemon for calls of any length", "statement": "The attitude filter is run with N gyro steps between two star-tracker readings, for any N >= 1 and any gyro step.  For a body that turns at most at rate r (constant between two readings), a constant gyro bias, and sensors wrong by at most d, the filter started close enough to the truth finds attitude and bias about all three axes: after k readings both errors are at most K (rho^k times the starting error + d + r^2).  In the daemon, where the bias is subtracted twice, the bias found is half the true one, for calls of every length in which at least one gyro step fits; in calls too short for a gyro step no bias is learnt at all and the controllers are given the gyro's reading as it is.  So for no length of the calls is a body at rest, watched by exact sensors, shown to the controllers as being at rest in the end.", "quantifier": "all gyro steps, all numbers of gyro steps per reading (or lengths of calls), all biases, attitudes and starting covariances equal about the three axes within a bound, all sequences of sensor errors within d, all numbers of readings", "why_tests_cant": "A simulation uses one pair of rates; convergence for every pair needs the covariance recursion of the combined step to converge for each of them, with gains small enough not to overshoot.", "anchors": ["src/oresat_adcs/classes/observers.py:55-158", "src/oresat_adcs/classes/observers.py:357-399", "src/oresat_adcs/classes/dynamics.py:392-400", "src/oresat_adcs/system/manager_class.py:107-134"]}
{"id": "C119", "title": "Detumbling as wired through distribute and the torquers: the momentum grows whenever a component asked for is negative, and a spin can grow without bound", "statement": "Detumbling is meant to bring a tumbling satellite to rest.  The moment asked for is passed to MagnetorquerSystem.distribute, whose currents the torquers turn into the moment applied.  For three linear rods along the body's axes, every inertia, field, attitude and rate: at an instant at which every component asked for is zero or positive the body's squared momentum changes at -2 s k |h x B|^2/|B|^2 for some 0 < s <= 1; at an instant at which some component is negative it grows, at least at 3.72 min(maximum currents) |h x B|, i.e. with at least the full moment of the weakest rod, so over a stretch of time on which some component is always negative and |h x B| is at least g it gains at least 3.72 min(maximum currents) g times the stretch's length.  Claimed and refuted: that the satellite comes to rest in every field in which the law asked for brings it to rest.  For all maximum currents, field strengths and starting rates there is such a field in which a ball spins up without bound.", "quantifier": "all inertias, fields, attitudes, rates, maximum currents, times and lengths of time", "why_tests_cant": "A simulation shows one tumble, and the two signs of the moment components alternate in most; that the momentum grows at every instant with a negative component, and that it can grow for ever where the law asked for would stop every motion, are statements about all times and fields.", "anchors": ["src/oresat_adcs/classes/controller.py:92-152", "src/oresat_adcs/configuration/structure.py:150-192", "src/oresat_adcs/classes/dynamics.py:288-317"]}
{"id": "C120", "title": "Clock in binary64: a step that meets the minute keeps the calendar exact for ever, one that misses freezes it, and the running total drifts", "statement": "With every operation rounded to binary64: for every step dt >= 2e-5 s of which some multiple k dt is within 9.9e-6 s of 60 s (so for every 60/k as Python computes it, k below three million), and any number of ticks n k + j, exactly n minutes have passed on the calendar and the second hand is within 2.2e-8 s of j dt; the rounding errors never build up from minute to minute.  For every step of which every multiple is at least 1.01e-5 s away from 60 s the date and minute never change, whatever the number of ticks, although the second hand grows until it stalls.  The running total absolute, which sets the phase of the BBQ roll, is off by at most half a unit in the last place per tick; within one binade its error is exactly proportional to the number of ticks.  Claimed and refuted: that absolute and the calendar agree; with the simulator's 0.05 s, between 194 and 388 days absolute gains between 8.9e-7 and 9e-7 s a minute on the calendar, a quarter of a second in all.", "quantifier": "all binary64 steps in the ranges, all legal starting dates, all numbers of ticks", "why_tests_cant": "Rounding accumulates differently for every step and every starting value; a test shows a few steps for a few minutes, not that no step and no number of ticks ever loses the minute.", "anchors": ["src/oresat_adcs/classes/jday.py:150-179", "src/oresat_adcs/classes/jday.py:18-28", "src/oresat_adcs/classes/controller.py:256-262"]}
{"id": "C121", "title": "Bang-bang detumbling is a compass needle below the dead band, and a negative component turns it round beyond", "statement": "With the bang_bang option, three linear rods along the axes of any positive current limits and wheels at rest.  While every component of the moment asked for stays below 0.3 the controller as created commands one moment fixed in the body, the smallest rod's full moment along all three axes, whatever is asked for.  In a field fixed in space the satellite is then a compass needle: kinetic energy minus moment times field is conserved, and unless it is exactly plus or minus the product of their sizes there is a rate above which the satellite comes back for ever, so it never comes to rest.  A satellite that starts slowly enough (a bound on its kinetic energy against the field strength) stays below 0.3 for ever, so this is the closed loop for all time.  When every component is at 0.3 or beyond, the squared momentum grows at an explicit rate if any component is negative, whatever the triggers held before, and falls if all are positive.  Claimed and refuted: that bang-bang detumbling brings a slow satellite to rest.", "quantifier": "all satellites of invertible moment of inertia, all rod limits, all fixed fields, all motions, all trigger memories (beyond), all times", "why_tests_cant": "The failure to come to rest is a statement about all future times and all starts; a simulation run shows a slow satellite still moving at the end, not that it never stops.", "anchors": ["src/oresat_adcs/classes/controller.py:9-55", "src/oresat_adcs/classes/controller.py:93-152", "src/oresat_adcs/classes/structure.py:150-192"]}
{"id": "C122", "title": "Momentum dumping as wired: a negative component asked for spins the wheels up, for ever in a field that should empty them", "statement": "desaturate with three linear rods along the axes of any positive current limits, its currents turned into a moment by the torquers, while the wheels hold the satellite exactly on a steadily turning reference whose own momentum needs no torque.  The wheels' momentum beyond the reference's changes as follows.  Whenever the moment asked for has a negative component the excess grows, its square at no less than 3.72 times the smallest rod limit times the size of the excess crossed with the field; over a stretch of time where the request keeps a negative component the square therefore grows at least linearly.  Whenever no component is negative the excess shrinks, at a fraction s in (0,1] of the rate asked for.  The growth can last for ever: for every triple of limits, field strength and starting wheel speed there is a rolling field in which every standby motion with the moment asked for empties its wheels, and in which, from the same start and with the currents as wired, the satellite keeps the barbecue roll exactly while one wheel speeds up linearly without bound.", "quantifier": "all controllers with a sun direction and no exclusion zone, all satellites of spanning wheels and invertible inertia, all rod limits, fields, references and reference speeds, all motions on the reference, all times; for the refutation all limits, field strengths and starting speeds", "why_tests_cant": "A test of desaturate compares currents with expected currents at a few states; that the sign error survives the wheels' own correction and is not averaged away by the roll is a statement about all times.", "anchors": ["src/oresat_adcs/classes/controller.py:93-125", "src/oresat_adcs/classes/controller.py:238-242", "src/oresat_adcs/classes/controller.py:266-283", "src/oresat_adcs/classes/structure.py:150-192"]}
{"id": "C123", "title": "Where a satellite parks that is told a biased rate: at rest, off the target by gamma |b| / alpha", "statement": "tracking is given a state whose rate carries a constant bias b and whose other errors are at most D exp(-nu t) + d.  For every gain, band, energy below the trigger's threshold, inertia and momentum bound and fading rate nu there are lam, d0, K > 0 such that, whenever |b| + D + d <= d0, no external torque acts and the reference is a fixed attitude: the trigger never flips, and the rate and the residue of the balance s alpha e_v = J^-1 (b x (J b + h)) - gamma b are at most K (exp(-lam t) + d) at every time (e_v the vector part of the attitude error, h the wheels' momentum).  When d = 0 attitude and wheels' momentum have limits, approached like K exp(-lam t), which satisfy the balance exactly: the satellite comes to rest at an attitude with |s alpha e_v + gamma b| at most mi |b| (mj |b| + N), so off its target by gamma |b| / alpha to first order in b, and never at the target when b.Jb is positive.", "quantifier": "all positive gains and bands, all satellites with spanning wheels and invertible inertia, all unit targets, all biases and errors within the bound, all motions of the closed loop, all times", "why_tests_cant": "The limit of a nonlinear loop exists or does not by an argument over all times; a simulation that looks settled cannot show that it does not drift along a family of balanced states, nor that every start ends in one.", "anchors": ["src/oresat_adcs/classes/controller.py:348-413", "src/oresat_adcs/classes/controller.py:19-62", "src/oresat_adcs/system/manager_class.py:27-48", "src/oresat_adcs/classes/observers.py:357-374"]}
{"id": "C124", "title": "POINT mode with the satellite it turns: the boresight goes to the target, unless the trigger remembers the other side", "statement": "The satellite turned by the wheels of point_and_stare.  For every pair of gains and energy E < 2 alpha there are lam, d0, K > 0 such that from every start with trigger memory 1 and 2 alpha (1 - cos(theta/2)) + |w|^2 / 2 <= E (theta the angle between boresight and target), while the direction of the target turns at no more than d <= d0 and the external torque accelerates by no more than d: point_and_stare never fails and hands back the trigger it was given, and alpha (1 - cos theta) + |w|^2 is at most 6 times its starting value times exp(-lam t), plus K d^2, at every time; so with a fixed direction and no torque the boresight converges to the target and the satellite to rest.  Refuted for the memory -1 that another mode leaves in the same trigger: at rest, with cos(theta/2) below the half-width 0.3, a fixed target and no torque, the boresight is at every later moment farther from the target than at the start, as long as it is not exactly opposite, and the trigger stays at -1.", "quantifier": "all positive gains, all energies below that of the antipode, all satellites with spanning wheels and invertible inertia, all boresights and targets, all orbits and torques within the bound, all motions of the closed loop, all times", "why_tests_cant": "The commanded attitude depends on the attitude itself, so there is no fixed reference to simulate against; that every start below the antipode's energy is carried in, and that none escapes when the target moves, is a statement over all starts and all times, and the failure needs a history through another mode.", "anchors": ["src/oresat_adcs/classes/controller.py:285-346", "src/oresat_adcs/classes/controller.py:348-413", "src/oresat_adcs/classes/controller.py:5-55"]}
{"id": "C125", "title": "Spin-down with the satellite around the wheels: it goes to sleep with all the momentum in the body", "statement": "The state machine, the manager and the satellite together, one transition and one mission_input per control period h, the commands held between: for every satellite with four wheels, from every state of body, wheels and commands, starting in SPINDOWN with 0 < h <= 1, the angular momentum of body and wheels in the inertial frame never changes; there is a cycle after which the machine is in SLEEP for good, the currents and accelerations commanded are zero and the wheels turn at a constant speed below 0.01 rad/s; and from then on |J w| differs from the magnitude of the whole momentum by at most 0.02 times the largest wheel moment.  Refuted: that the satellite sleeps at rest.  Started with the body at rest it turns for ever after at no less than (the wheels' momentum - 0.02 pm) / jm, jm the largest moment of inertia, with nothing that would stop it.", "quantifier": "all satellites with four wheels of unit axes and invertible inertia, all starting states, commands, missions and magnetic fields, all periods up to one second, all motions of the hybrid loop, all times", "why_tests_cant": "The tests call mission_input and the transitions one at a time with made-up wheel speeds and no body; that the loop of the two always ends in SLEEP, and where the momentum has gone by then, is a statement over all starting speeds, all periods and unbounded runs.", "anchors": ["src/oresat_adcs/system/manager_class.py:25-75", "src/oresat_adcs/configuration/state_machine.py:178-212", "src/oresat_adcs/configuration/state_machine.py:453-477", "src/oresat_adcs/classes/dynamics.py:289-319"]}
{"id": "C126", "title": "The modes that command nothing: the satellite keeps obeying the last wheel command, and its rate grows without bound", "statement": "The manager and the satellite together, one mission_input per control period, the commands held between.  While every call is for a mode that sets no wheel command (SAFE, UNSAFE, MANUAL, any number that is no mode, or POINT with an environment that has no sun_vector), the wheel command in force is the last one of the mode before; at every time t the wheel speeds are those at the start plus t times that command; the angular momentum in the inertial frame has changed by at most M t, M a bound on the torque from outside with that of the torquers; and |J w| >= |H0 + t tau| - |L0| - M t, H0 the wheels' momentum and L0 the whole momentum at the start, tau the torque of the command.  Refuted: that these modes leave the satellite quiet.  If |tau| > M, for every bound there is a time from which on the rate of the body and the wheels' speed exceed it.", "quantifier": "all satellites with invertible inertia and four commanded wheels, all starting states and last commands, all sequences of such calls, all periods, all torques from outside within M, all motions of the hybrid loop, all times", "why_tests_cant": "The tests of the manager look at the command after one call, with no body; that the same command is still being obeyed an hour later, and what the satellite is doing by then, is a statement over unbounded runs.", "anchors": ["src/oresat_adcs/system/manager_class.py:25-75", "src/oresat_adcs/classes/controller.py:348-413", "src/oresat_adcs/classes/dynamics.py:289-319"]}
{"id": "C127", "title": "When a mission begins and ends: the clock and the state machine together", "statement": "In (1) to (3) the clock is Clock, ticking a K-th of a minute at a time from a whole minute; transition is called once after each tick, from SAFE, with a mission set and any measurements.  (1) Whatever the clock, POINT is entered only after a poll at or after the mission's start, and left for UNSAFE only after a later poll at or after its end.  (2) If the start and the end are the instants of polls a < b, the state is SAFE up to poll a, POINT up to poll b and UNSAFE for ever after.  (3) If the start's seconds are at most 60 minus one tick, the mission begins, before the end of the later of the year it is set for and the year the clock shows.  Refuted: that a mission past its start begins, and past its end ends.  If the seconds of the start (end) exceed 60 minus one tick, SAFE (POINT) lasts for ever; and for every year y, a machine that comes to SAFE at New Year, one second after a start at 23:59:59 on 31 December, begins the mission 365 or 366 days later less one second.  (4) With a JClock, ticking any number of seconds at a time, every mission begins at the first poll strictly after its start, no later than one tick after it, and ends at the first later poll strictly after its end.", "quantifier": "all tick counts K, all starting times, all missions, all measurements, all numbers of polls, all years", "why_tests_cant": "The tests of the clock compare a few dates and those of the state machine use a stub for is_after; that a mission whose end falls between two ticks at the end of a minute keeps the satellite in POINT for ever is a statement about unbounded runs of both.", "anchors": ["src/oresat_adcs/classes/jday.py:29-52", "src/oresat_adcs/configuration/state_machine.py:24-58", "src/oresat_adcs/configuration/state_machine.py:281-315", "src/oresat_adcs/configuration/state_machine.py:453-477"]}
{"id": "C128", "title": "The whole daemon in POINT mode with a biased gyro: the satellite can stand still beside its target for ever", "statement": "The manager daemon and the satellite it turns, one call per period: sensor_input with the true attitude, mission_input in POINT with the gyro's reading (true rate plus a constant bias bs), propagate, then the satellite moves by the code's equations with the commands held.  The daemon is meant to bring the boresight to the target.  (1) If the satellite is at rest at an attitude q where alpha h = gamma bs/2 - J^-1 (bs/2 x (J bs/2 + h_w)), h the axis between boresight and target times sin(theta/2), and the filter has the true attitude and half the bias (what the double subtraction of C117 makes it learn), then for every run and every number of calls: the satellite stays at rest at q, every command is zero, the trigger never flips, the filter reports the true attitude and bs/2 as the rate, and the boresight stays off the target, alpha sin(theta/2) = |gamma bs/2 - J^-1 (...)|.  (2) Refuted: that POINT brings the boresight to the target.  For every controller, boresight and bias along a principal axis perpendicular to it with gamma |bs| < 2 alpha there is a target and a run, every sensor but the gyro exact, with the satellite at rest for ever and sin(theta/2) = gamma |bs| / (2 alpha).", "quantifier": "all satellites with spanning wheels and symmetric positive definite inertia, all controllers without a keep-out zone, all biases, boresights and targets, all lengths of calls, all runs, all times", "why_tests_cant": "Filter, wrapper, manager, controller, wheels and body each pass their tests; that together they have a resting state beside the target is visible only in the composed loop, and that it lasts for ever only in unbounded runs.", "anchors": ["src/oresat_adcs/system/manager_class.py:25-134", "src/oresat_adcs/classes/observers.py:339-399", "src/oresat_adcs/classes/controller.py:312-413", "src/oresat_adcs/classes/dynamics.py:289-319"]}
{"id": "C129", "title": "Detumbling with the moment held between calls: which periods still bring the satellite to rest", "statement": "detumble is called once every h seconds; the moment it asks for is computed from the field and the rate of that instant and held, fixed in the body, until the next call.  (1) Let J be the inertia, L a bound on |J^-1|, N the initial momentum, k the gain of the law times p h, and let the field change by at most be (t - s) |B| within a period and stray at any p consecutive calls from every direction by a mean squared sine of at least c.  If 16 h (8 L N + be) (1 + k^2) <= c and the gain times h is at most 1/2, every motion comes to rest: the momentum falls by the factor r = 1 - c k / (8 (1 + k^2)) every p calls, is at most 4 r^(n/p) times the initial one in between, and the rate tends to zero.  (2) From every start with a unit attitude there is such a motion, in every Lipschitz field.  (3) Refuted: that some period or slowness of the field is enough for every initial rate.  For every h and m there is a field of constant strength, with mean squared sine 1/2 over every 2 m calls, in which the unheld law brings every motion to rest, and a satellite spinning at 2 pi / h plus the field's rate whose rate is the same at every call for ever.", "quantifier": "every inertia matrix with an inverse, field history, initial attitude and rate, period, motion, number of calls and time", "why_tests_cant": "A simulation with a slow tumble and a short step shows convergence for that tumble; which rates are too fast for the step, and that the rest is reached, needs all rates and infinite time.", "anchors": ["src/oresat_adcs/classes/controller.py:93-117", "src/oresat_adcs/classes/controller.py:127-152", "src/oresat_adcs/classes/dynamics.py:289-319"]}
{"id": "C130", "title": "One trigger for all modes: what the wheel controller remembers after any history of calls, and POINT turning away because of it", "statement": "ReactionWheelsController has one MayhewTrigger, used by BBQ and POINT and never reset.  Over every history of the daemon's calls (sensor data, mission calls of any mode, propagation) that return: the memory stays 1 or -1 and the half-width unchanged, and the memory is -1 exactly if some BBQ call saw an attitude error whose scalar part was at most minus the half-width and no later call in BBQ or POINT saw one of at least the half-width; POINT alone never makes it -1, its scalar part being never negative.  A BBQ call on a satellite exactly on the roll's reference, told with the other sign of the quaternion, leaves -1.  Refuted: that POINT commands the same whatever came before.  With the memory -1 and cos(theta/2) below the half-width, on a satellite at rest, the wheel command is exactly minus the one given with the trigger as created, which (unsaturated) accelerates the body by alpha along the short way to the target; and the memory stays -1.", "quantifier": "all histories of calls that return, all managers, controllers with any instruments (for the memory) or without a keep-out zone (for the commands), all attitudes, boresights and targets", "why_tests_cant": "The order of modes over a mission is unbounded, and each mode passes its own tests with a fresh trigger; that one mode's leftover decides the direction another turns in shows only over histories.", "anchors": ["src/oresat_adcs/classes/controller.py:5-55", "src/oresat_adcs/classes/controller.py:266-346", "src/oresat_adcs/classes/controller.py:348-413", "src/oresat_adcs/system/manager_class.py:25-75"]}
{"id": "C131", "title": "POINT mode with the command held between calls: short periods bring the boresight to the target, long ones spin the satellite up", "statement": "C124 lets the command of point_and_stare follow the state continuously; the daemon computes it once per period and the wheels hold it.  For every pair of gains, energy E < 2 alpha, bound m on the inverse inertia and bound N on the total momentum there are a rate lam, a longest period h0, a largest disturbance d0 and K such that for every period up to h0, every start with trigger memory 1 and 2 alpha (1 - cos(theta/2)) + |w|^2 / 2 <= E, while the direction of the target turns at no more than d <= d0, the external torque is at most d and the momentum at most N: every call hands back the controller it was given, and at every time (between calls too) alpha (1 - cos theta) + |w|^2 is at most 6 times its starting value times exp(-lam t), plus K d^2.  Without external torque a bound on the momentum at the start is enough, and towards a fixed direction the boresight converges.  Refuted for periods over 2 / gamma: without total momentum and towards a fixed direction, every motion whose rate exceeds alpha h / (gamma h - 2) turns ever faster, by the factor gamma h - 1 per period, whatever boresight, target and trigger.", "quantifier": "all positive gains, all energies below that of the antipode, all bounds on inertia and momentum, all satellites with spanning wheels and invertible inertia, all boresights, targets, orbits and torques within the bound, all periods up to h0 (or over 2/gamma), all motions under held commands, all times", "why_tests_cant": "Which periods are short enough is a statement about infinitely many calls of a sampled nonlinear loop for every inertia, momentum and start; a simulation shows one period and one start, and the spin-up needs a fast start at a particular period.", "anchors": ["src/oresat_adcs/classes/controller.py:285-346", "src/oresat_adcs/classes/controller.py:348-413", "src/oresat_adcs/classes/dynamics.py:384-420"]}
{"id": "C132", "title": "The whole daemon in POINT mode on its own estimates: a state told within d of the truth carries the boresight to within a multiple of d of the target", "statement": "C131 hands the controller the true state; the daemon hands it the filter's output.  For every pair of gains, energy E < 2 alpha, bound m on the inverse inertia and bound N on the total momentum there are a rate lam, a longest period h0, a largest error d0 and K such that for every period up to h0 and every d <= d0: if the daemon is called in POINT once per period for ever, its output at each call has a unit attitude and is within d of the truth in the direction in which the target is seen, the rate and the momentum (with the told and the true speed of the line of sight and the outside torque at most d, the momentum at most N), then from every start with trigger memory 1 and 2 alpha (1 - cos(theta/2)) + |w|^2 / 2 <= E the torquers are off after every call, every call leaves the wheel controller as it was, and at every time alpha (1 - cos theta) + |w|^2 is at most 6 times its starting value times exp(-lam t), plus K d^2.  The power is the right one: for every period and every gyro bias along a principal axis perpendicular to the boresight there is such a run with d proportional to the bias in which the satellite stays off the target for ever, 1 - cos theta = 2 (gamma |bias| / (2 alpha))^2.", "quantifier": "all positive gains, all energies below that of the antipode, all bounds on inertia and momentum, all satellites with spanning wheels and invertible inertia, all boresights, targets, orbits, sensor readings, filters and torques within the bounds, all periods up to h0, all runs of daemon and satellite, all times", "why_tests_cant": "That no sequence of estimation errors within d, however adverse, drives the pointing error beyond a multiple of d is a statement about all infinite error sequences; a test tries a few random ones, which average out.", "anchors": ["src/oresat_adcs/system/manager_class.py:25-134", "src/oresat_adcs/classes/observers.py:339-399", "src/oresat_adcs/classes/controller.py:312-413", "src/oresat_adcs/classes/dynamics.py:289-319"]}
{"id": "C133", "title": "The limits of the actuators over every history of the daemon: wheels within their torque except in SPINDOWN, torquers within their currents except for moments with a negative component", "statement": "C25 and C26 are about one call of the allocation; the daemon keeps commands in force between calls, replaces only some of them in some modes and may raise half way.  Start from an object with zero commands and apply any list of mission_input calls, sensor_input calls and changes of the filters, exceptions included.  If the wheels are limited and every SPINDOWN finds wheel speeds for which (parallel moment) x (speed) is at most the limit, then at every point of the history no wheel is asked for more torque than its limit, and the command has four entries or one for each wheel.  Without that there is no bound: SPINDOWN ignores the limit, and for every factor K there are speeds at which one call asks a wheel for more than K times its limit, and this stays in force through any later history of SAFE, UNSAFE, MANUAL, sensor readings and filter changes.  If the magnetorquer controller is not bang-bang, has three usable torquers and no moment asked for in DETUMBLE or BBQ has a negative component, then at every point of the history no current exceeds its torquer's limit.  Without that there is no bound either: for every satellite with invertible inertia and a second torquer that is not a Rod, and for every K, there are a rate and a field for which one DETUMBLE call drives that torquer with more than K times its limit, and this stays in force in the same way.", "quantifier": "all lists of mission calls, sensor readings and filter states, all clocks, boresights and targets, all limited sets of wheels with non-zero moments, all triples of torquers, all factors", "why_tests_cant": "That no sequence of modes leaves a command beyond the limits in force is a statement about all histories of an object that keeps state, including those in which a call raises after half its work; tests call one mode on a fresh object.", "anchors": ["src/oresat_adcs/system/manager_class.py:25-134", "src/oresat_adcs/configuration/structure.py:MagnetorquerSystem.distribute", "src/oresat_adcs/configuration/structure.py:ReactionWheelSystem.accelerations", "src/oresat_adcs/classes/controller.py:93-152"]}
{"id": "C134", "title": "Detumbling on an estimated rate: the momentum falls to the size of the estimation error, and a bias in the rate is left as spin", "statement": "C105 and C129 hand detumble the true rate; the daemon hands it the filter's estimate.  Let the momentum told (inertia times the rate handed to detumble) be off by at most d at all times.  In a continuous field whose direction keeps changing (C105's T and c) the squared momentum of every motion falls per window of length T to at most rho times itself plus 2 K T d^2, rho = 1 - c K / (2 (1 + 2 K^2 T^2)), so after n windows it is at most rho^n times the initial one plus (4 T (1 + 2 K^2 T^2)/c + K T) d^2.  In a field on one line of inertial space the momentum along the line never changes and the squared momentum across it is at most exp(-K t) times the initial one plus d^2.  With the moment held between calls h seconds apart and p calls per window with mean squared sine c: if K h <= 1/2, the calls are frequent enough for field and momentum, and d is small against the bound N on the initial momentum, then at the windows' ends the momentum is at most r^j times the initial one plus 32 (1 + k^2) d / c, k = K p h, r = 1 - c k / (8 (1 + k^2)), and in between at most 4 r^j times the initial one plus 136 (1 + k^2) d / c.  The docstring's claim of asymptotic stability does not survive a bias: in every field and for every rate w there is a motion that is told that it is at rest, off by d, and whose momentum stays d for ever.", "quantifier": "all inertia matrices with an inverse, all fields of each kind, all histories of told rates within d, all initial attitudes and rates, all motions and times, all periods and numbers of calls", "why_tests_cant": "Stability of a switched differential equation with an arbitrary bounded error in its feedback is a statement about a continuum of error histories and all times; a simulation shows one of them for a finite time.", "anchors": ["src/oresat_adcs/classes/controller.py:127-152", "src/oresat_adcs/classes/controller.py:93-117", "src/oresat_adcs/classes/dynamics.py:289-319", "src/oresat_adcs/system/manager_class.py:25-134"]}
{"id": "C135", "title": "How fast the satellite can turn, whatever the daemon is told: a least time for every slew", "statement": "Let the manager's object go, before each period of length h, through any list of mission_input calls, sensor_input calls and changes of the filters (exceptions included, SPINDOWN only with wheels slow enough for C133), and let the satellite then move by the code's equations with the commands held and a torque of at most M from torquers and surroundings.  Let W be the wheels' torque limit times the sum of the lengths of their axes, 1/L a bound below on the inertia, and N the sum of the sizes of the whole momentum and of the wheels' at the start.  Then for every such history and every time t: the quaternion stays a unit, the momentum in the inertial frame has changed by at most M t, that of the wheels by at most W t, |J w| <= N + (W + M) t, the direction of any boresight has moved by at most L (N t + (W + M) t^2/2), and if it has turned by an angle th then th <= L (N t + (W + M) t^2/2).  So from rest with still wheels no sequence of modes, targets and estimates turns a boresight by th in less than sqrt(2 th / (L (W + M))).  The bound cannot be improved: a satellite with four wheels on one axis, held at their limit through SAFE, turns by exactly the bound at every time.", "quantifier": "all satellites with invertible inertia and limited wheels, all histories of operations on the object, all filters, controllers, targets and boresights, all periods, all outside torques within M, all motions, all times and angles", "why_tests_cant": "A least time for a slew is a statement about every sequence of calls and every motion they can bring about; a simulation only shows how long one sequence took.", "anchors": ["src/oresat_adcs/system/manager_class.py:25-134", "src/oresat_adcs/configuration/structure.py:ReactionWheelSystem.accelerations", "src/oresat_adcs/classes/dynamics.py:289-319"]}
{"id": "C136", "title": "Outside DETUMBLE and BBQ the daemon never unloads the wheels: a steady torque winds them up past every speed", "statement": "Start from an object with zero currents and apply, before each period, any operations on the manager except mission_input in DETUMBLE or BBQ: POINT with any target and estimate, SPINDOWN, SAFE and the others, calls that raise, sensor readings, changes of the filters.  The satellite moves by the code's equations with the commands held.  Then the currents are zero for ever, and the momentum in the inertial frame changes only by the torque from outside: by at most M t if that is at most M, so not at all without one.  If the torque from outside has a component of at least tau along a fixed direction of the inertial frame, the momentum along it has grown by at least tau t at every time t, and if at t the body's momentum |J w| is at most X and every wheel turns at most at speed S, then tau t <= |H(0)| + X + S G, G the sum of the wheels' moments times the lengths of their axes: the longest time a torque can be held.  Refuted: that such a torque can be held.  For all X and S there is a time from which on the body's momentum exceeds X or a wheel turns faster than S, whatever the daemon is told.  The bound is attained: a satellite with four wheels on one axis stands still under a steady torque in POINT with tau t = S G at every time.", "quantifier": "all satellites with invertible inertia, all histories of such operations, all torquers, filters, controllers and targets, all periods, all outside torques, all motions, all times and bounds", "why_tests_cant": "That no sequence of calls unloads the wheels, and that the speed passes every bound, are statements about all histories and all times; tests call a mode once.", "anchors": ["src/oresat_adcs/system/manager_class.py:25-134", "src/oresat_adcs/configuration/structure.py:178-192", "src/oresat_adcs/classes/dynamics.py:289-319"]}
{"id": "C137", "title": "The speed of a slew is capped by the gains, whatever the targets and however weak the wheels", "statement": "The satellite moves by the code's equations while its wheels obey tracking() for a target attitude at rest, as far as their torque limit allows; there is no torque from outside and no zone to keep out of.  The target may be any function of time, jumps included, and so may the trigger's memory (+1 or -1); the wheels' speeds are arbitrary.  Let E = w . J w be twice the rotational energy and jm the greatest moment of inertia.  Then for all times t0 <= t, E(t) is at most the greater of E(t0) and jm (alpha / gamma)^2.  Above the bound E falls towards it exponentially, at a rate fixed by the satellite, the gains, the momentum and the largest E allowed at the start, the same for all targets.  So a shortfall of torque never speeds the satellite up, though the part of the command that cancels the gyroscopic torque is cut with the rest.  From rest, with the gains the constructor sets, the rate never exceeds frequency / damping times the root of jm / jl, jl the least moment of inertia.  The bound cannot be lowered: a target that stays half a turn ahead keeps E at it for ever.", "quantifier": "all satellites, wheel sets that span, torque limits, positive gamma, all histories of targets and trigger memories, all motions and pairs of times", "why_tests_cant": "The bound holds along every motion under every history of targets and is free of the torque limit; tests call tracking() in single states and never run the loop with saturated wheels.", "anchors": ["src/oresat_adcs/classes/controller.py:348-395", "src/oresat_adcs/classes/controller.py:397-413", "src/oresat_adcs/configuration/structure.py:ReactionWheelSystem.accelerations", "src/oresat_adcs/classes/dynamics.py:289-319"]}
{"id": "C138", "title": "Wheels that are strong enough never saturate in slews from rest, and every slew from rest then arrives", "statement": "Let the satellite move by the code's equations while its wheels, with their torque limit, obey tracking() of a controller made by the constructor; no torque from outside, no zone to keep out of.  Let jl and jm bound the inertia, let a wheel be asked for at most D times the torque asked for on the body, let the wheels' momentum at the start be at most L, and let W = frequency / damping times the root of jm / jl.  If D (W L + jm (2 f^2 + 2 damping f W)), f the frequency, is at most the wheels' torque, then in a motion from rest no command ever exceeds it, whatever the history of targets and trigger memories.  From any spin up to a given energy and any total momentum up to L, if the same quantity is below the wheels' torque, there is a time, the same for all such motions and all targets, from which on no command exceeds it.  For a fixed target the attitude and the rate therefore go to it exponentially from rest in any attitude, at a rate fixed by the gains, with nothing assumed about saturation along the motion.", "quantifier": "all satellites, spanning wheel sets and limits, all positive damping and frequency, all targets and histories of targets, all starting attitudes and wheel momenta up to L, all motions and times", "why_tests_cant": "It sizes the wheels for every slew at once; tests never run the loop with limited wheels, and a simulated slew shows one target from one attitude.", "anchors": ["src/oresat_adcs/classes/controller.py:348-395", "src/oresat_adcs/classes/controller.py:397-413", "src/oresat_adcs/configuration/structure.py:ReactionWheelSystem.accelerations", "src/oresat_adcs/classes/dynamics.py:289-319"]}
{"id": "C139", "title": "From any spin the trigger flips a bounded number of times, and after the last flip the satellite goes to its target", "statement": "Let a satellite with any attitude and rate at the start move by the code's equations while its wheels, unsaturated, obey tracking() towards a fixed target, attitude and rate being continuous.  Let the trigger flip at times T1 < T2 < ..., the wheels obeying the controller as each flip leaves it; no torque from outside, no zone to keep out of.  Let V0 be alpha times the squared distance of the attitude quaternion from the one first aimed for, plus half the squared rate, at the start.  Then each flip uses up at least 4 alpha hw of V0, hw being the trigger's half width, so there are at most V0 / (4 alpha hw) flips and they cannot pile up; the n-th comes no later than n ln (4 V0 / (alpha (1 + hw))) / lambda, with a positive rate lambda fixed by the gains and hw.  As long as no further flip comes after the last, at T, squared distance and squared rate fall below a multiple of V0 exp (- lambda (t - T)).", "quantifier": "all satellites with spanning wheels, positive gains, half widths between 0 and 1, targets, starting attitudes and rates, trigger memories, all numbers and times of flips, all motions and times", "why_tests_cant": "Flips depend on the spin and on the whole path; a simulated slew shows one count of flips, and no finite set of them excludes endless switching.", "anchors": ["src/oresat_adcs/classes/controller.py:20-55", "src/oresat_adcs/classes/controller.py:348-395", "src/oresat_adcs/classes/controller.py:397-413", "src/oresat_adcs/classes/dynamics.py:289-319"]}
