{"id": "C01", "title": "Propagation stops exactly at the requested epoch", "statement": "If propagating a state by a duration (forward, backward or to an epoch) returns successfully, the epoch of the returned state is exactly the start epoch plus the requested duration, whatever the step controller decided on the way.", "quantifier": "every dynamics, every initial state, every duration of either sign, every (adaptive or fixed) step history, every start step size that moves in the right direction", "why_tests_cant": "The loop runs an unbounded, data-dependent number of steps; a test sees one step history of one dynamics.", "anchors": ["nyx-core/src/propagators/instance.rs: PropInstance::propagate, for_duration, until_epoch, single_step"]}
{"id": "C02", "title": "No recorded state is outside the propagated interval and epochs are strictly monotone", "statement": "The states emitted during a propagation have epochs strictly increasing (forward) or strictly decreasing (backward), all strictly after the start and none past the requested end; the last one emitted is the state returned.", "quantifier": "every dynamics, duration and step history", "why_tests_cant": "Overshoot would only appear for particular step-size/duration combinations.", "anchors": ["nyx-core/src/propagators/instance.rs: PropInstance::propagate"]}
{"id": "C03", "title": "Forward propagation terminates", "statement": "A forward propagation whose steps never fall below the minimum step takes at most (duration / minimum step) + 1 steps before it returns or fails.", "quantifier": "every dynamics and step controller outcome, every duration", "why_tests_cant": "Termination is a claim over every execution and cannot be observed by a finite test.", "anchors": ["nyx-core/src/propagators/instance.rs: PropInstance::propagate, derive"]}
{"id": "C04", "title": "The step controller honours its error, size and retry limits", "statement": "One adaptive step evaluates at most the configured number of attempts; it is accepted only if its estimated error is within tolerance, or the step is already at most the minimum, or the attempts ran out; the step proposed for next time is never longer than the maximum (when the accepted step was not) and never shorter than the minimum.", "quantifier": "every dynamics, error estimator outcome, tolerance, step limits and current step", "why_tests_cant": "The retry loop is driven by real-valued error estimates; a test exercises a handful of error sequences.", "anchors": ["nyx-core/src/propagators/instance.rs: PropInstance::derive", "nyx-core/src/propagators/options.rs: IntegratorOptions"]}
{"id": "C05", "title": "Propagating does not disturb the propagator's configuration", "statement": "After a propagation that runs to its end, the step size, its direction and the fixed/adaptive setting are those the step controller last chose, so a following propagation behaves as if started afresh; a zero duration changes nothing at all.", "quantifier": "every dynamics, duration and step history, forward and backward, with or without an early stop condition", "why_tests_cant": "A leak of the truncated last step or of the sign flip only shows for specific sequences of calls.", "anchors": ["nyx-core/src/propagators/instance.rs: PropInstance::propagate, set_step"]}
{"id": "C06", "title": "Fixed-step propagation composes", "statement": "With a fixed step, propagating by d1 (a whole number of steps) and then by d2 gives the same state as propagating by d1 + d2 in one call.", "quantifier": "every dynamics, initial state, fixed step and pair of durations", "why_tests_cant": "Equality must hold for all split points; a test can only try some.", "anchors": ["nyx-core/src/propagators/instance.rs: PropInstance::propagate, single_step"]}
{"id": "C07", "title": "A stop condition returns the first state that satisfies it", "statement": "When propagating with a stop condition, an early return hands back a state satisfying the condition, every state emitted before it does not satisfy it, and without an early return no intermediate state satisfied it.", "quantifier": "every condition predicate, dynamics and step history", "why_tests_cant": "Quantifies over arbitrary predicates and step histories.", "anchors": ["nyx-core/src/propagators/instance.rs: PropInstance::propagate", "nyx-core/src/propagators/event.rs: until_nth_event"]}
{"id": "C08", "title": "Runge-Kutta tableaux are consistent and have the advertised order on quadratures and linear systems", "statement": "For every integration method offered, the embedded table has the declared number of stages, its weights integrate every polynomial right-hand side of degree below the declared order exactly, and one step on y' = L y reproduces the exponential series up to the declared order; the embedded comparison solution is itself consistent.", "quantifier": "every polynomial right-hand side of degree below the order, every step size, every coefficient of the linear system, every method", "why_tests_cant": "Order is a statement about all right-hand sides and step sizes; numerical convergence tests only sample them and cannot detect a small table error.", "anchors": ["nyx-core/src/propagators/rk_methods/rk.rs: CashKarp45, RK4Fixed, RK89", "nyx-core/src/propagators/rk_methods/dormand.rs: Dormand45, Dormand78", "nyx-core/src/propagators/rk_methods/verner.rs: Verner56", "nyx-core/src/propagators/instance.rs: PropInstance::derive"]}
{"id": "C09", "title": "Step error estimates are non-negative and vanish when the two embedded solutions agree", "statement": "Every error estimator returns a non-negative number, returns zero when the embedded error vector is zero, and grows with the magnitude of the error irrespective of the direction in which a component moves.", "quantifier": "every error vector, candidate state and current state", "why_tests_cant": "Quantifies over all real vectors; sign errors surface only for particular directions of motion.", "anchors": ["nyx-core/src/propagators/error_ctrl.rs: ErrorControl::estimate"]}
{"id": "C10", "title": "A finalized trajectory is time ordered and holds every distinct epoch once", "statement": "After a trajectory is finalized its states are sorted by epoch, no state is invented, every epoch that was present is still present, and no epoch appears twice.", "quantifier": "every list of states in any order with any duplicates", "why_tests_cant": "Duplicates and orderings are unbounded; a test uses one arrival order.", "anchors": ["nyx-core/src/md/trajectory/traj.rs: Traj::finalize"]}
{"id": "C11", "title": "Trajectory building is independent of thread scheduling", "statement": "The trajectory returned by a propagation with trajectory recording is the same whatever the order in which the worker threads hand over the recorded states: the start state, every step and the end state, in time order.", "quantifier": "every interleaving (permutation of arrival), every propagation", "why_tests_cant": "Schedules cannot be enumerated by a test.", "anchors": ["nyx-core/src/propagators/instance.rs: for_duration_with_traj", "nyx-core/src/md/trajectory/traj.rs: Traj::finalize"]}
{"id": "C12", "title": "Querying a trajectory at one of its epochs returns that very state; outside its range it fails", "statement": "Asking for the state at an epoch returns the stored state when the epoch is stored, an error when the trajectory is empty or the epoch is before the first or after the last state, and otherwise interpolates from a contiguous window of stored states around the epoch, never indexing out of bounds.", "quantifier": "every time-ordered trajectory of any length and every query epoch", "why_tests_cant": "Boundary indices depend on the length of the trajectory and position of the query.", "anchors": ["nyx-core/src/md/trajectory/traj.rs: Traj::at", "nyx-core/src/md/trajectory/interpolatable.rs: Interpolatable, Spacecraft::interpolate"]}
{"id": "C13", "title": "Iterating over a trajectory visits the exact time grid", "statement": "Iterating with a step from a start to an end epoch yields exactly the epochs start, start+step, start+2*step, ... that do not exceed the end and lie in the trajectory, in order, each once.", "quantifier": "every trajectory, step, start and end", "why_tests_cant": "Off-by-one at the end depends on divisibility of the span by the step.", "anchors": ["nyx-core/src/md/trajectory/traj.rs: Traj::every, every_between", "nyx-core/src/md/trajectory/traj_it.rs: TrajIterator"]}
{"id": "C14", "title": "Filtering a trajectory by epoch keeps exactly the states in the range", "statement": "Filtering by an epoch range keeps exactly the states whose epoch satisfies the given bounds, in order; filtering by offset from the start is the same with the bounds shifted by the first epoch.", "quantifier": "every trajectory and every combination of included, excluded and missing bounds", "why_tests_cant": "Nine bound combinations times unbounded data.", "anchors": ["nyx-core/src/md/trajectory/traj.rs: filter_by_epoch, filter_by_offset"]}
{"id": "C15", "title": "Concatenating two trajectories keeps the left one and appends only newer states", "statement": "Adding two trajectories in the same frame yields a time-ordered trajectory that contains all of the first and exactly those states of the second which are later than the end of the first; different frames are refused.", "quantifier": "every pair of trajectories, overlapping or not", "why_tests_cant": "Overlaps are unbounded in shape.", "anchors": ["nyx-core/src/md/trajectory/traj.rs: Add for Traj, AddAssign"]}
{"id": "C16", "title": "A tracking arc is time ordered with one measurement per (epoch, tracker)", "statement": "After building a tracking arc, its measurements are sorted by epoch then tracker, each (epoch, tracker) pair occurs once, and the merged measurement carries every observable of the inputs with that key, later input winning, rejected if any was.", "quantifier": "every list of measurements", "why_tests_cant": "Unbounded inputs with arbitrary duplicates.", "anchors": ["nyx-core/src/od/msr/trackingdata/mod.rs: TrackingDataArc::sort"]}
{"id": "C17", "title": "Chunking a tracking arc partitions it", "statement": "Splitting an arc in chunks of a positive duration yields non-empty chunks whose concatenation is the original arc; in a sorted arc all measurements of a chunk are within the duration of its first one, and the split terminates for every input.", "quantifier": "every arc and every chunk duration", "why_tests_cant": "Termination and partition over all data.", "anchors": ["nyx-core/src/od/msr/trackingdata/mod.rs: TrackingDataArc::chunk"]}
{"id": "C18", "title": "Filters on tracking arcs keep exactly what they claim", "statement": "Filtering an arc by epoch, offset, tracker or measurement type keeps exactly the measurements satisfying the criterion, unchanged and in order; excluding keeps exactly the others; rejecting flags exactly those selected and nothing else.", "quantifier": "every arc, criterion and bound combination", "why_tests_cant": "Unbounded data and nine bound combinations.", "anchors": ["nyx-core/src/od/msr/trackingdata/mod.rs: filter_by_epoch, filter_by_offset, filter_by_tracker, exclude_tracker, filter_by_measurement_type, exclude_measurement_type, reject_by_epoch, reject_by_tracker"]}
{"id": "C19", "title": "Applying moduli keeps the observable in one ambiguity interval and the filter recovers the ambiguity", "statement": "Reducing an observable by its modulus changes it by a whole number of moduli and brings it within one modulus; during filtering, adding back the whole number of moduli predicted by the model leaves a prefit smaller than one modulus.", "quantifier": "every observable, modulus and computed value", "why_tests_cant": "Sign conventions of remainder differ; only all-input reasoning settles it.", "anchors": ["nyx-core/src/od/msr/trackingdata/mod.rs: apply_moduli", "nyx-core/src/od/process/mod.rs: process_arc"]}
{"id": "C20", "title": "Downsampling keeps order, trackers' coverage and never increases the number of measurements", "statement": "Downsampling an arc to a longer sampling interval yields no more measurements than the input, in time order, with epochs taken from the input, and leaves an arc that is already sparse enough unchanged.", "quantifier": "every arc and target interval", "why_tests_cant": "Window sizes depend on the data.", "anchors": ["nyx-core/src/od/msr/trackingdata/mod.rs: downsample"]}
{"id": "C21", "title": "CCSDS TDM export and import agree", "statement": "Exporting an arc to a TDM and importing it yields the same epochs, trackers and values for every observable type that TDM supports (frequency scale and range units included), two-way observables doubled and halved consistently.", "quantifier": "every arc", "why_tests_cant": "Unbounded data; keyword by keyword mapping.", "anchors": ["nyx-core/src/od/msr/trackingdata/io_ccsds_tdm.rs: from_tdm, to_tdm_file"]}
{"id": "C22", "title": "Tracking schedules respect the handoff policy", "statement": "With a greedy or eager handoff no two strands of the generated schedule overlap in time, strands never extend beyond the visibility of their tracker, stay ordered (start before end), and last at least the configured minimum number of samples.", "quantifier": "every set of visibility windows for every number of trackers and every scheduler configuration", "why_tests_cant": "Number of stations and windows is unbounded; tests use two stations.", "anchors": ["nyx-core/src/od/simulator/arc.rs: TrackingArcSim::generate_schedule", "nyx-core/src/od/simulator/scheduler.rs: Scheduler, Handoff, Cadence"]}
{"id": "C23", "title": "Simulated measurements fall on the sampling grid inside the strands", "statement": "Every simulated measurement is taken at a strand's start plus a whole number of sampling periods, not after the strand's end nor outside the trajectory; every grid point where the device produces a measurement before the first failure in the strand is present; the result is time ordered.", "quantifier": "every schedule, device behaviour and sampling", "why_tests_cant": "Unbounded schedules and device outcomes.", "anchors": ["nyx-core/src/od/simulator/arc.rs: generate_measurements"]}
{"id": "C24", "title": "Tracking configurations are accepted exactly when they are well formed", "statement": "A tracking configuration is accepted if and only if exactly one of a scheduler or a non-empty strand list is given and every strand is ordered and at least one sampling long.", "quantifier": "every configuration", "why_tests_cant": "Case analysis over unbounded strand lists.", "anchors": ["nyx-core/src/od/simulator/trkconfig.rs: TrkConfig::sanity_check"]}
{"id": "C25", "title": "ASN.1 DER encoding round-trips", "statement": "Decoding the DER encoding of a scheduler, strand, tracking configuration, noise model, thruster, guidance mode or measurement type returns an equal value and consumes exactly the bytes written, whatever follows them.", "quantifier": "every value of those types and every trailing byte string", "why_tests_cant": "Integers of every length and every combination of optional fields.", "anchors": ["nyx-core/src/od/simulator/scheduler.rs: Encode/Decode", "nyx-core/src/od/simulator/trkconfig.rs: Encode/Decode", "nyx-core/src/od/noise/mod.rs", "nyx-core/src/od/noise/gauss_markov.rs", "nyx-core/src/od/noise/white.rs", "nyx-core/src/od/msr/types.rs", "nyx-core/src/cosmic/spacecraft.rs"]}
{"id": "C26", "title": "The filter's covariance stays symmetric and positive semi-definite", "statement": "Starting from a symmetric positive semi-definite covariance, after any sequence of time updates and measurement updates (accepted or rejected) the covariance is symmetric positive semi-definite.", "quantifier": "every sequence of updates, every state transition matrix, sensitivity, noise and gain, every state size", "why_tests_cant": "An invariant over all histories; a test follows one.", "anchors": ["nyx-core/src/od/kalman/filtering.rs: time_update, measurement_update"]}
{"id": "C27", "title": "A measurement never increases the uncertainty and the Joseph form equals the optimal update", "statement": "With the gain the filter computes, the posterior covariance equals P - K S K^T, and the prior minus the posterior covariance is positive semi-definite.", "quantifier": "every prior, sensitivity, positive definite measurement noise, every dimension", "why_tests_cant": "Matrix inequality over all inputs.", "anchors": ["nyx-core/src/od/kalman/filtering.rs: measurement_update"]}
{"id": "C28", "title": "A rejected measurement has no influence on the estimate", "statement": "If the residual ratio exceeds the threshold, or the measurement is flagged rejected, the estimate and covariance are exactly those of a time update and the residual is marked rejected; otherwise it is accepted.", "quantifier": "every estimate, measurement and threshold", "why_tests_cant": "Independence of the measurement value is a two-run property.", "anchors": ["nyx-core/src/od/kalman/filtering.rs: measurement_update", "nyx-core/src/od/kalman/rejectcrit.rs", "nyx-core/src/od/process/mod.rs: process_arc"]}
{"id": "C29", "title": "Processing independent observables one at a time equals processing them together", "statement": "For observables with independent noises, updating with them sequentially at the same epoch gives the same state and covariance as one joint update, and so does not depend on their order.", "quantifier": "every prior, every split of the sensitivity matrix, every positive definite block noise", "why_tests_cant": "Algebraic identity over all matrices.", "anchors": ["nyx-core/src/od/kalman/filtering.rs: measurement_update", "nyx-core/src/od/process/mod.rs: process_arc"]}
{"id": "C30", "title": "Process noise is applied only when configured to, at most one at a time, and is positive semi-definite", "statement": "The noise added by a time update is zero or the contribution of the last configured process noise that is applicable: one whose start time has passed and for which the gap since the previous update does not exceed its disable time; what is added is symmetric positive semi-definite.", "quantifier": "every list of process noises, epoch history and gap", "why_tests_cant": "Histories of gaps are unbounded.", "anchors": ["nyx-core/src/od/snc.rs: ProcessNoise::to_matrix, propagate", "nyx-core/src/od/kalman/filtering.rs: time_update"]}
{"id": "C31", "title": "Orbit determination processes every measurement exactly once, in order", "statement": "Processing an arc visits its measurements in order, each at its own epoch and once; between measurements it performs time updates with steps no longer than the maximum step; measurements of unknown trackers or flagged as rejected cause no measurement update; the solution's epochs never go back in time.", "quantifier": "every arc, device set, step sizes chosen by the propagator and filter outcome", "why_tests_cant": "The interleaving of steps and measurements is unbounded.", "anchors": ["nyx-core/src/od/process/mod.rs: process_arc"]}
{"id": "C32", "title": "Prediction covers the requested span", "statement": "Predicting until an epoch emits estimates with strictly increasing epochs, spaced by the maximum step, the first at the initial epoch and the last at the requested epoch.", "quantifier": "every initial estimate, end epoch and maximum step", "why_tests_cant": "Divisibility of the span by the step.", "anchors": ["nyx-core/src/od/process/mod.rs: predict_until, predict_for"]}
{"id": "C33", "title": "An orbit determination solution keeps estimates, residuals and gains aligned", "statement": "After any sequence of updates, filtering, splitting or dropping of time updates, the lists of estimates, residuals, gains and consistency ratios have equal length and entry i of each belongs to the same update; accepted and rejected residuals partition the residuals.", "quantifier": "every sequence of operations", "why_tests_cant": "Unbounded operation sequences.", "anchors": ["nyx-core/src/od/process/solution/mod.rs: push_measurement_update, push_time_update", "nyx-core/src/od/process/solution/filter_data.rs: filter_by_msr_type, filter_by_tracker, exclude_tracker, split, drop_time_updates"]}
{"id": "C34", "title": "Merging two solutions yields all updates in chronological order", "statement": "Merging two orbit determination solutions contains every update of both, each list permuted consistently, in chronological order.", "quantifier": "every pair of solutions", "why_tests_cant": "The in-place permutation misbehaves only for some cycle structures.", "anchors": ["nyx-core/src/od/process/solution/filter_data.rs: ODSolution::merge"]}
{"id": "C35", "title": "Smoothing maps the final estimate back through the state transition matrices", "statement": "Smoothing a solution yields one smoothed estimate per filtered one, in the same order, the last unchanged and each earlier one obtained from the later smoothed one by the inverse of its state transition matrix; it fails if some matrix is singular.", "quantifier": "every solution of any length", "why_tests_cant": "Index arithmetic over unbounded lists.", "anchors": ["nyx-core/src/od/process/solution/smooth.rs: ODSolution::smooth"]}
{"id": "C36", "title": "Residual statistics are what they say", "statement": "Reported RMS values, the count of residuals within n sigma and the consistency tests equal their mathematical definitions over the accepted residuals.", "quantifier": "every solution", "why_tests_cant": "Unbounded lists with absent values.", "anchors": ["nyx-core/src/od/process/solution/stats.rs"]}
{"id": "C37", "title": "Batch least squares uses every measurement once and solves the normal equations", "statement": "Each iteration of the batch estimator accumulates every non-rejected measurement of a known device exactly once and its correction solves the accumulated normal equations; a reported convergence means the last correction was within tolerance.", "quantifier": "every arc, prior, device behaviour", "why_tests_cant": "Unbounded measurement lists including simultaneous ones.", "anchors": ["nyx-core/src/od/blse/mod.rs: BatchLeastSquares::estimate, evaluate"]}
{"id": "C38", "title": "Levenberg-Marquardt never accepts a worse fit and keeps its damping within limits", "statement": "With the damped solver an iteration is accepted only if it lowers the RMS, so the RMS of accepted estimates never increases; the damping stays between its configured minimum and maximum; after a refused step the next one is attempted with a larger damping.", "quantifier": "every cost function and every iteration history", "why_tests_cant": "Iteration histories are unbounded.", "anchors": ["nyx-core/src/od/blse/mod.rs: BatchLeastSquares::estimate"]}
{"id": "C39", "title": "Noise models validate their parameters and have non-negative variance", "statement": "Constructors refuse non-positive time constants and negative noise densities; variances are never negative; the variance of a combined model is the sum; scaling multiplies accordingly; the bias of a Gauss-Markov process decays with the time elapsed since its first sample.", "quantifier": "every parameter and every sequence of sample epochs", "why_tests_cant": "Histories of sample epochs are unbounded.", "anchors": ["nyx-core/src/od/noise/mod.rs: StochasticNoise", "nyx-core/src/od/noise/white.rs: WhiteNoise", "nyx-core/src/od/noise/gauss_markov.rs: GaussMarkov"]}
{"id": "C40", "title": "A finite burn thrusts exactly between its start and end epochs", "statement": "A spacecraft following a maneuver is in thrust mode exactly at the epochs within the maneuver, with the maneuver's throttle then and zero throttle otherwise; a spacecraft whose guidance is inhibited stays inhibited.", "quantifier": "every maneuver, epoch and guidance mode", "why_tests_cant": "Boundary epochs and all modes.", "anchors": ["nyx-core/src/dynamics/guidance/mnvr.rs: Maneuver", "nyx-core/src/dynamics/guidance/replay.rs", "nyx-core/src/cosmic/spacecraft.rs: GuidanceMode"]}
{"id": "C41", "title": "Propellant is conserved and never goes negative", "statement": "In every state returned or recorded by a propagation propellant mass is non-negative; it never increases along a forward propagation, decreases in proportion to thrust time at rate throttle*thrust/(isp*g0), and is constant when coasting or when mass decrement is disabled.", "quantifier": "every spacecraft, guidance law and step history", "why_tests_cant": "Invariant over all executions.", "anchors": ["nyx-core/src/dynamics/spacecraft.rs: SpacecraftDynamics::eom, finally"]}
{"id": "C42", "title": "Low-thrust laws coast when they must", "statement": "A low-thrust guidance law sets the mode to coast when all objectives are met or when the eclipse limit is exceeded, to thrust otherwise, and never changes an inhibited spacecraft.", "quantifier": "every spacecraft state, objective list and eclipse value", "why_tests_cant": "All combinations of modes and conditions.", "anchors": ["nyx-core/src/dynamics/guidance/ruggiero.rs: Ruggiero::next", "nyx-core/src/dynamics/guidance/kluever.rs: Kluever::next"]}
{"id": "C43", "title": "Thrust direction conversions are consistent", "statement": "A direction built from angles is a unit vector; converting a unit vector to angles and back gives the same vector, for in-plane/out-of-plane angles and for right ascension/declination.", "quantifier": "every angle pair and every unit vector", "why_tests_cant": "Quadrant errors appear only in parts of the sphere.", "anchors": ["nyx-core/src/dynamics/guidance/mod.rs: plane_angles_from_unit_vector, unit_vector_from_plane_angles, ra_dec_from_unit_vector, unit_vector_from_ra_dec"]}
{"id": "C44", "title": "Invalid thrust commands are refused", "statement": "The equations of motion of a thrusting spacecraft fail unless a thruster is defined, the throttle is within [0, 1] and the commanded direction is a unit vector; the thrust acceleration then has magnitude throttle*thrust/mass.", "quantifier": "every command and spacecraft", "why_tests_cant": "All reals.", "anchors": ["nyx-core/src/dynamics/spacecraft.rs: SpacecraftDynamics::eom", "nyx-core/src/dynamics/guidance/mnvr.rs: Maneuver::from_impulsive"]}
{"id": "C45", "title": "A mission sequence executes its phases in order and without gaps", "statement": "Running a sequence propagates through the enabled phases in chronological order, each until the start of the next one, the trajectories are contiguous in time, and execution stops at the termination phase or at the requested phase.", "quantifier": "every sequence of phases and every initial epoch", "why_tests_cant": "Unbounded sequences with enabled/disabled phases.", "anchors": ["nyx-core/src/dynamics/sequence/mod.rs: SpacecraftSequence::propagate, validate"]}
{"id": "C46", "title": "The spacecraft state survives conversion to and from its integration vector", "statement": "Writing a spacecraft into the integration vector and reading it back gives the same orbit, coefficients, propellant mass and state transition matrix; the reflectivity coefficient read back is always within [0, 2]; reading a settable parameter after setting it returns the value set.", "quantifier": "every spacecraft and every parameter", "why_tests_cant": "90 components and every real value.", "anchors": ["nyx-core/src/cosmic/spacecraft.rs: to_vector, set, Add, value, set_value"]}
{"id": "C47", "title": "Monte Carlo results do not depend on thread scheduling and are reproducible", "statement": "With a given seed, the set of runs and their results, ordered by run number, is the same whatever the interleaving of the workers; asking for more runs only appends; resuming after a number of runs yields the remaining runs with the numbers they would have had.", "quantifier": "every interleaving, seed, run count and skip count", "why_tests_cant": "Schedules cannot be enumerated.", "anchors": ["nyx-core/src/mc/montecarlo.rs: MonteCarlo::generate_states, run_until_epoch, resume_run_until_epoch"]}
{"id": "C48", "title": "Spacecraft dispersions are applied to the requested parameters with the requested spread", "statement": "A multivariate spacecraft generator built from dispersions has, for each dispersed parameter, the requested standard deviation as the square root of its variance, zero for the others; each sample's reported dispersion added to the template gives the sampled state.", "quantifier": "every list of dispersions", "why_tests_cant": "All parameter combinations.", "anchors": ["nyx-core/src/mc/multivariate.rs: MvnSpacecraft::new, from_spacecraft_cov, sample"]}
{"id": "C49", "title": "Polynomial evaluation and arithmetic are exact", "statement": "Evaluating a polynomial returns its value and the value of its derivative; sum, difference and scaling of polynomials evaluate to the sum, difference and scaling of the values.", "quantifier": "every degree, coefficient list and abscissa", "why_tests_cant": "All degrees.", "anchors": ["nyx-core/src/polyfit/polynomial.rs: Polynomial::eval_n_deriv, Add, Sub, Mul, CommonPolynomial"]}
{"id": "C50", "title": "Elementary vector and angle utilities satisfy their mathematical contracts", "statement": "Angle wrapping returns an equivalent angle in the documented interval; elementary rotations are orthogonal; projection and perpendicular component add up to the vector and are orthogonal; the skew matrix computes the cross product; normalisation is inverted by denormalisation; spherical and Cartesian coordinates round-trip; the pseudo-inverse is a one-sided inverse.", "quantifier": "every real input, vector and matrix", "why_tests_cant": "All reals.", "anchors": ["nyx-core/src/utils.rs: between_0_360, between_pm_x, r1, r2, r3, rotv, projv, perpv, tilde_matrix, normalize, denormalize, cartesian_to_spherical, spherical_to_cartesian, pseudo_inverse"]}
{"id": "C51", "title": "A Lambert solution is a single Keplerian arc", "statement": "Whenever the Gooding solver returns velocities, position and velocity at both ends have the same angular momentum and the same orbital energy, and the time of flight it converged to is within 1e-4 s of the requested one; it always terminates.", "quantifier": "every pair of positions, time of flight and gravitational parameter", "why_tests_cant": "Conservation must hold for every converged iterate.", "anchors": ["nyx-core/src/tools/lambert/godding.rs: gooding", "nyx-core/src/tools/lambert/mod.rs: TransferKind::direction_of_motion"]}
{"id": "C52", "title": "Targeting variables stay within their bounds and objectives are assessed against their tolerance", "statement": "A bounded variable is always within its limits and unchanged when already inside; an objective is met exactly when its scaled error is within tolerance; a targeting solution is returned only if all objectives are met, after at most the configured iterations.", "quantifier": "every variable, objective and iteration history", "why_tests_cant": "Iteration histories are unbounded.", "anchors": ["nyx-core/src/md/opti/target_variable.rs: Variable", "nyx-core/src/md/objective.rs: Objective::assess_value", "nyx-core/src/md/opti/raphson_finite_diff.rs: try_achieve_fd"]}
{"id": "C53", "title": "The state transition matrix follows the dynamics", "statement": "Along a propagation the state transition matrix of consecutive steps composes (later step applied on the left) and for linear time-invariant dynamics agrees with the solution to the order of the integrator.", "quantifier": "every linear dynamics, step and integrator", "why_tests_cant": "Order of products and accuracy need all matrices.", "anchors": ["nyx-core/src/dynamics/spacecraft.rs: SpacecraftDynamics::eom", "nyx-core/src/propagators/instance.rs: derive"]}
{"id": "C54", "title": "Event search returns the n-th crossing", "statement": "Propagating until the n-th occurrence of an event stops after exactly n sign changes of the event function along the emitted states, counts every sign change once, and fails if fewer are found before the maximum duration.", "quantifier": "every event function and step history", "why_tests_cant": "Unbounded sign histories.", "anchors": ["nyx-core/src/propagators/event.rs: until_nth_event"]}
{"id": "C55", "title": "One integration step follows the true solution to the advertised order", "statement": "For every smooth equation of motion and every integration method, the state produced by one step of h seconds differs from the exact solution by at most a constant times h^(p+1), p being the method's order; the embedded comparison solution does so with its own order.", "quantifier": "every right-hand side with enough derivatives, time dependent or not, every start state, every method, every small step", "why_tests_cant": "A test integrates a few equations with a few steps and cannot establish the order of the error for all right-hand sides; an order condition that is broken only for trees not exercised by the test problem stays unnoticed.", "anchors": ["nyx-core/src/propagators/instance.rs: PropInstance::derive", "nyx-core/src/propagators/rk_methods/rk.rs: CashKarp45, RK4Fixed, RK89", "nyx-core/src/propagators/rk_methods/dormand.rs: Dormand45, Dormand78", "nyx-core/src/propagators/rk_methods/verner.rs: Verner56"]}
{"id": "C56", "title": "An interpolated spacecraft is at the requested epoch with a mass between its neighbours'", "statement": "Interpolating a spacecraft trajectory between two stored states yields a state at exactly the requested epoch and in the neighbours' frame, whose propellant mass lies on the line between the recorded masses, and the interpolation never panics for the windows a query can build.", "quantifier": "every window of at most 13 states, every requested epoch, every recorded masses", "why_tests_cant": "Tests interpolate trajectories whose mass barely changes; the wrong starting mass of the linear rule shows only when the propellant changes within one window.", "anchors": ["nyx-core/src/md/trajectory/interpolatable.rs: Spacecraft::interpolate", "nyx-core/src/md/trajectory/traj.rs: Traj::at"]}
{"id": "C57", "title": "Resampled, rebuilt and re-framed trajectories hold exactly the requested epochs", "statement": "Resampling a trajectory with a step, rebuilding it at given epochs or changing its frame yields a time-ordered trajectory whose states are the ones a query of the original returns at exactly the requested epochs (the original epochs for a change of frame); a rebuild with an epoch outside of the trajectory fails.", "quantifier": "every trajectory, every positive step, every list of epochs in any order, every frame transformation", "why_tests_cant": "Tests resample one trajectory at one step; that no requested epoch is lost and none invented concerns all lists of epochs.", "anchors": ["nyx-core/src/md/trajectory/traj.rs: Traj::resample, Traj::rebuild", "nyx-core/src/md/trajectory/sc_traj.rs: Traj::to_frame"]}
{"id": "C58", "title": "Residuals are those of the filter's own prediction", "statement": "The ratio by which a measurement is accepted or rejected is the normalized distance between the observation and the filter's prediction of it, and the postfit residual of an accepted measurement is the observation minus what the updated estimate predicts, whichever variant of the filter is used.", "quantifier": "every filter variant, prior, sensitivity, noise and observation", "why_tests_cant": "The two variants agree whenever the tracked deviation is zero, as in most test setups; the claim is about all priors.", "anchors": ["nyx-core/src/od/kalman/filtering.rs: measurement_update", "nyx-core/src/od/estimate/residual.rs"]}
{"id": "C59", "title": "An observable absent from a measurement does not inform the filter", "statement": "When a tracking device supports several observables and a measurement carries only some of them, the sensitivity matrix holds the sensitivity of each observable present and null rows for the others, so that the estimate depends only on the observables present.", "quantifier": "every device, every subset of its observables, every filter state", "why_tests_cant": "Arcs used in tests carry every observable of the device in each measurement; the claim is about all subsets and about independence of a value that was never measured.", "anchors": ["nyx-core/src/od/msr/sensitivity.rs: h_tilde", "nyx-core/src/od/interlink/sensitivity.rs: h_tilde", "nyx-core/src/od/msr/measurement.rs: observation", "nyx-core/src/od/process/mod.rs: process_arc"]}
{"id": "C60", "title": "A sensitivity row is the derivative of its observable", "statement": "For every supported observable, the row of the sensitivity matrix is the list of partial derivatives of the observable, in its unit, with respect to the nine estimated parameters, at the current state.", "quantifier": "every receiver state, every device location and velocity, every observable", "why_tests_cant": "Derivatives at every point of a nine dimensional space; a wrong sign or unit only slows or biases convergence.", "anchors": ["nyx-core/src/od/msr/sensitivity.rs: ScalarSensitivity::new", "nyx-core/src/od/interlink/sensitivity.rs: ScalarSensitivity::new"]}
{"id": "C61", "title": "The range rate between two spacecraft is the rate of change of their range", "statement": "For two spacecraft in any motion, the Doppler observable of the link is the time derivative of its range observable.", "quantifier": "every pair of differentiable motions", "why_tests_cant": "Quantifies over all motions; a transmitter at rest hides a missing term.", "anchors": ["nyx-core/src/od/interlink/trk_device.rs: measure_instantaneous"]}
{"id": "C62", "title": "Averaged (two-way) observables lie between those of both ends, and carry the noise and bias the filter expects", "statement": "A two-way observable without noise lies between the one-way observables at both ends of the integration time, along the shorter arc for azimuths; one-way observables are those of the geometry plus the noise; the constant bias of a device is removed from the residuals, so that a simulated noiseless measurement with a known bias has zero residual at the true state.", "quantifier": "every geometry, noise and bias", "why_tests_cant": "Continuous inputs including angles across the 0/360 boundary; default biases are absent in tests.", "anchors": ["nyx-core/src/od/msr/types.rs: compute_one_way, compute_two_way", "nyx-core/src/od/process/mod.rs: process_arc", "nyx-core/src/od/ground_station/trk_device.rs: measurement_bias, measure_instantaneous"]}
{"id": "C63", "title": "Ground stations keep their observables and noises consistent however they are built", "statement": "Whatever sequence of builder calls makes a station, each of its observables is listed once and has a noise, so that simulation and filter find the noise of every observable it offers; adding sets and removing removes that observable only; setting the constant bias of an observable makes the filter see that bias, and is an error when the observable is not configured; the noise processes continue from one measurement to the next.", "quantifier": "every sequence of builder calls and every sequence of simulated measurements", "why_tests_cant": "Sequences of calls are unbounded; tests check single calls.", "anchors": ["nyx-core/src/od/ground_station/mod.rs: with_msr_type, without_msr_type, with_msr_bias_constant, noises", "nyx-core/src/od/ground_station/trk_device.rs: measurement_covar, measurement_bias"]}
{"id": "C64", "title": "Closed-loop steering moves the targeted element toward its target", "statement": "Whenever a closed-loop law with a single objective commands a thrust, the commanded direction is a unit vector along which the targeted orbital element changes toward its target value (semi-major axis, eccentricity, inclination, node, argument of periapsis, equinoctial elements), at every point of every elliptical orbit.", "quantifier": "every orbit, objective, weight and position on the orbit", "why_tests_cant": "A test propagates a few transfers; the steering must have the right sign at every true anomaly of every orbit, and the rate of change is a derivative that tests do not evaluate.", "anchors": ["nyx-core/src/dynamics/guidance/kluever.rs: direction", "nyx-core/src/dynamics/guidance/ruggiero.rs: direction"]}
{"id": "C65", "title": "Steering efficiencies are between zero and one", "statement": "The efficiency of changing an orbital element at a point of an elliptical orbit is between 0 and 1, so that the efficiency thresholds of the Ruggiero law have their documented meaning.", "quantifier": "every elliptical orbit, position and supported element", "why_tests_cant": "A bound over all orbits and anomalies; tests evaluate a handful of points.", "anchors": ["nyx-core/src/dynamics/guidance/ruggiero.rs: efficiency, weighting"]}
{"id": "C66", "title": "The setters of a maneuver are read back by its getters", "statement": "Setting the direction, rate or acceleration of a maneuver makes the corresponding getter return that value and leaves the others, the times, the level and the frame unchanged; a maneuver points along its direction at its start, and is antichronological exactly when it ends before it starts.", "quantifier": "every maneuver and every vector", "why_tests_cant": "The round trip goes through angles with branch cuts, and the interplay of direction, rate and acceleration has many cases; tests check single values.", "anchors": ["nyx-core/src/dynamics/guidance/mnvr.rs: set_direction, set_rate, set_accel, direction, rate, accel, vector, antichronological"]}
{"id": "C67", "title": "Replaying a recorded trajectory commands what was recorded", "statement": "The replay law commands, at any epoch within a recorded trajectory, the thrust direction of the last state recorded at or before it, coasts when that state was coasting and outside of the recorded span; a propagation that records a maneuver and is replayed thrusts over the same steps.", "quantifier": "every recorded trajectory and every epoch", "why_tests_cant": "The lookup is a binary search with boundary cases at every recorded epoch; tests replay one maneuver.", "anchors": ["nyx-core/src/dynamics/guidance/replay.rs: command_at_or_before, direction, throttle, next", "nyx-core/src/dynamics/spacecraft.rs: finally"]}
{"id": "C68", "title": "Staging and docking change exactly what they describe", "statement": "Entering a phase with a staging or docking event changes the masses, areas and coefficients by exactly the described amounts, applies the impulse in its local frame and leaves everything else alone; docking undoes staging with the opposite impulse.", "quantifier": "every spacecraft, impulse and set of physical properties", "why_tests_cant": "Each combination of optional fields and every spacecraft; a test checks one stage of one mission.", "anchors": ["nyx-core/src/dynamics/sequence/mod.rs: SpacecraftSequence::propagate", "nyx-core/src/dynamics/sequence/discrete_event.rs: DiscreteEvent, PhysicalProperties"]}
{"id": "C69", "title": "Izzo's velocities lie on one conic joining the positions", "statement": "When izzo returns velocities for a problem with positions that are not aligned, the departure (position, transfer velocity) and the arrival (position, arrival velocity) have the same angular momentum, energy and eccentricity vector, whatever the orientation of the transfer plane; a problem with equal positions is reported as an error.", "quantifier": "all positions not aligned with the body, all times of flight and gravitational parameters, all transfer kinds, all values of the hypergeometric series", "why_tests_cant": "the unit tests solve a handful of published cases whose transfer planes have a normal towards positive z; the geometry in which the normal is flipped is not among them", "anchors": ["nyx-core/src/tools/lambert/izzo.rs:44-135", "nyx-core/src/tools/lambert/izzo.rs:139-155", "nyx-core/src/tools/lambert/izzo.rs:162-204"]}
{"id": "C70", "title": "Monte Carlo reports keep one value per run, in order", "statement": "With a value for failed runs, the reports of the first and of the last values of a parameter have exactly one value per run, in the order of the runs; without it failed runs are left out; the report of the dispersions has the dispersion of each run, and is an error when a run does not have that parameter; the report of every value keeps the values of one run together at a place that depends only on the number of steps.", "quantifier": "every list of runs, parameter and default", "why_tests_cant": "Any mix of failed and successful runs must be considered.", "anchors": ["nyx-core/src/mc/results.rs: Results::first_values_of, last_values_of, every_value_of, dispersion_values_of"]}
{"id": "C71", "title": "An affine targeting problem is solved by one correction", "statement": "When the objectives depend affinely on the position and velocity at the correction epoch, their factors are one, the rows of the Jacobian are independent and the correction respects the bounds, the targeter returns a solution after at most one correction, and a solution found after one correction meets the objectives exactly.", "quantifier": "every affine problem with any number of objectives and variables, initial guess and perturbations", "why_tests_cant": "Tests target particular orbits; the claim is about every linear problem.", "anchors": ["nyx-core/src/md/opti/raphson_finite_diff.rs: Targeter::try_achieve_fd", "nyx-core/src/md/objective.rs: Objective::assess_value"]}
{"id": "C72", "title": "Frequencies of a TDM become range rates", "statement": "Importing a TDM with transmit and receive frequencies and a turn-around ratio turns every receive frequency that follows a transmit frequency into the range rate of the link whose (possibly ramped) transmit frequency produced it; no frequency is left in the arc and the other observables are unchanged.", "quantifier": "every file, ramp and order of records", "why_tests_cant": "The transmit frequency is carried from record to record, so the result depends on the whole history of the file.", "anchors": ["nyx-core/src/od/msr/trackingdata/io_ccsds_tdm.rs: from_tdm"]}
{"id": "C73", "title": "Orbital dynamics", "statement": "The equations of motion of an orbit are its velocity and Newton's central acceleration plus the sum of the accelerations of all the models, whatever their order; with no other model the energy and the angular momentum are kept along every solution; the acceleration of the point masses is the gradient of the disturbing function of the bodies other than the center; and the matrix of partial derivatives returned with the acceleration is the Jacobian of the equations of motion.", "quantifier": "every orbit, list of models, list of bodies and ephemeris", "why_tests_cant": "Tests compare a few propagations with reference data to a tolerance; a wrong partial derivative only slows a filter down and no sample shows it.", "anchors": ["nyx-core/src/dynamics/orbital.rs: OrbitalDynamics, PointMasses"]}
{"id": "C74", "title": "Gravity field", "statement": "For every degree, order and set of normalised coefficients, the acceleration of a gravity field is the gradient, at the position of the orbit in the frame of the field, of the potential given by the fully normalised spherical harmonics of degree at least one, turned into the frame of the orbit; the gradient returned with it is the derivative of this acceleration with respect to the position of the orbit; and none of the unchecked reads of the tables is out of bounds as long as the coefficients hold the degree.", "quantifier": "every degree, order, coefficients, position other than the center, frame and rotation", "why_tests_cant": "The recursions run over all degrees and orders; reference accelerations exist for a few fields and positions and a wrong normalisation of one order or an out-of-bounds read shows at others only.", "anchors": ["nyx-core/src/dynamics/gravity_field.rs: GravityField::new, eom, gradient"]}
{"id": "C75", "title": "Gravity field files", "statement": "Loading a SHADR or COF file with a requested degree and order gives a field whose potential is that of the coefficients of the file up to this degree and order, each counted once; every file that loads gives a field whose acceleration never reads outside of its coefficients; the extension selects the reader; and the J2 of from_j2 is the J2 of the body.", "quantifier": "every file, requested degree and order", "why_tests_cant": "Tests load three files to one degree; the joined columns of COF files, truncation in the middle of a degree and files in another order are other inputs.", "anchors": ["nyx-core/src/io/gravity.rs: from_config, from_j2, from_shadr, from_cof, load, cs_nm"]}
{"id": "C76", "title": "Solar radiation pressure and shadows", "statement": "The force of solar radiation pressure points away from the light source in the frame of the orbit, with the intensity of the flux at one astronomical unit divided by the square of the distance and multiplied by the fraction of the Sun that no shadow body hides; it vanishes in an umbra; its gradient is the derivative of the force with respect to the position and to the coefficient of reflectivity, for every state; and every body that the user lists casts its shadow.", "quantifier": "every spacecraft, light source, list of shadow bodies, orientation of the frames", "why_tests_cant": "Tests compare two trajectories in the J2000 axes with reference values; other orientations, penumbra partials, a null coefficient and several shadow bodies are not sampled.", "anchors": ["nyx-core/src/dynamics/solarpressure.rs: eom, gradient, default_flux_raw", "nyx-core/src/cosmic/eclipse.rs: ShadowModel::compute", "nyx-core/src/dynamics/spacecraft.rs: dual_eom"]}
{"id": "C77", "title": "Atmospheric drag", "statement": "The drag force opposes the velocity of the spacecraft with respect to the atmosphere and takes its energy, with half the density times the coefficient, the area and the square of the velocity; the density decreases with the altitude and has its reference value at the reference altitude, in the documented units; and a coefficient of drag marked for estimation can be estimated.", "quantifier": "every spacecraft, atmosphere and rotating frame", "why_tests_cant": "Tests propagate a few orbits and compare with values of the code itself; the sign of the power in every geometry is not sampled.", "anchors": ["nyx-core/src/dynamics/drag.rs: Drag::eom, ConstantDrag::eom, gradient, earth_exp, std_atm1976"]}
{"id": "C78", "title": "The error of the filter", "statement": "A prediction maps the tracked deviation, hence its error, by the state transition matrix; an accepted measurement with noise v leaves the error (1 - K H) phi (x - estimate) - K v, whose covariance is the one the filter reports; a filter that knows the true deviation exactly keeps knowing it through any sequence of predictions and noiseless measurements; and a measurement that does not depend on the state changes neither the deviation nor the covariance of the prediction.", "quantifier": "every filter state, dimension, state transition matrix, measurement, and every sequence of updates", "why_tests_cant": "The truth is unknown in a run: tests compare a filter with a simulated truth within a tolerance on a few scenarios, which hides an error in the mapping of the deviation that the next measurement corrects.", "anchors": ["nyx-core/src/od/kalman/filtering.rs: KalmanFilter::time_update, KalmanFilter::measurement_update"]}
{"id": "C79", "title": "The geometry of ground assets", "statement": "The Jacobian of a ground asset is the derivative of the map from its geodetic coordinates and their rates to its Cartesian position on the ellipsoid and velocity; its velocity on the south, east and zenith axes is that velocity, and setting a velocity then reading it gives it back; the great circle distance is the radius times the angle between the directions of both assets, hence a metric; and the vector of a state holds the state.", "quantifier": "every asset, ellipsoid with positive radii, velocity and pair or triple of assets", "why_tests_cant": "Tests compare a few sites with stored values; a missing term of the curvature or of the partials is small at most sites, and the poles are not sampled.", "anchors": ["nyx-core/src/od/groundpnt/mod.rs: to_inertial_jacobian, velocity_sez_m_s, with_velocity_sez_m_s, great_circle_distance_km, latlongalt_rate, velocity_sez_from_latlongalt_rate"]}
{"id": "C80", "title": "Estimation of ground assets", "statement": "A propagated asset moves along its constant rates for exactly the elapsed time, its gradient is that of its equations of motion and its state transition matrix maps deviations over the propagation; a range or range rate is that of the geometry plus the noise, an averaged one the mean of both ends, only with the transmitter above the horizon; the rows of the sensitivity matrix are the derivatives of what is measured; and measurements carry the name of the device that made them.", "quantifier": "every asset, method, step mode, duration, transmitter and set of measurement types", "why_tests_cant": "The filter converges on the tested scenarios in spite of a wrong partial; the frames, the visibility and the durations where it matters are not all sampled.", "anchors": ["nyx-core/src/od/groundpnt/ground_dynamics.rs: eom, dual_eom", "nyx-core/src/od/groundpnt/sensitivity.rs: new", "nyx-core/src/od/groundpnt/trk_device.rs: measure, measure_instantaneous"]}
{"id": "C81", "title": "The B-plane of an encounter", "statement": "A B-plane exists exactly for the orbits with positive energy and nonzero angular momentum; its S axis is the direction of the incoming asymptote determined by the conservation laws, its T and R axes complete a right-handed triple with T along the product of S and the third axis; (B.T) T + (B.R) R is the point of the asymptote nearest to the body, the magnitude and angle are its polar coordinates, the Jacobian holds the derivatives of B.R, B.T and of the linearized time of flight in the velocity, and the time of flight depends on where the spacecraft is.", "quantifier": "every gravitational parameter, position and velocity", "why_tests_cant": "Tests compare a couple of encounters with another tool; partials and axes are not checked, and the time of flight is never compared with a nonzero value.", "anchors": ["nyx-core/src/cosmic/bplane.rs: from_dual, new, jacobian, jacobian2, angle_deg, magnitude_km"]}
{"id": "C82", "title": "Achieving a B-plane", "statement": "A returned maneuver leads from the given orbit to one whose B-plane, also returned, is within the tolerances of the target; every correction is the smallest that cancels the error to first order; a target of the time of flight can be achieved, within the documented tolerance of a second.", "quantifier": "every orbit, target and number of corrections", "why_tests_cant": "Tests run two targets to convergence; that convergence is to the right thing for every orbit and that the time of flight can be targeted are not tested.", "anchors": ["nyx-core/src/cosmic/bplane.rs: try_achieve_b_plane, BPlaneTarget::from_targets, from_bt_br, ltof_target_set"]}
{"id": "C83", "title": "Solid tides", "statement": "The acceleration of solid tides is the gradient, in the frame of the orbit, of the sum over the perturbers and the degrees 2 and 3 of the Love number times the potential that the perturber has at the surface, continued outside; the matrix returned with it is its derivative in the position; the system of the Earth and the Moon has the documented Love numbers, degree 3 for the Moon only, and complete frames.", "quantifier": "every number of perturbers, each either at a pole or more than 1e-12 away from it, and every position, Love numbers, rotation and center of the frames", "why_tests_cant": "The only test checks the order of magnitude of one acceleration; the normalisations, recursions and signs of seven harmonics are compared with nothing.", "anchors": ["nyx-core/src/dynamics/solid_tides.rs: compute_pert, accumulate_deltas, eom, gradient, earth_moon_system"]}
{"id": "C84", "title": "Targeting with exact partials", "statement": "When targeting with exact partials returns a solution, propagating the start moved by the correction reaches the state it shows, every objective is met there in the frame of the objectives with the errors it shows, and it took no more iterations than allowed; the Jacobian it inverts holds the derivatives of the objectives along the variables; each correction stays within the largest step of its variable; objectives that are affine in the correction are met after one iteration; the frames asked for are honoured.", "quantifier": "every set of position and velocity variables, objectives, dynamics, start, epochs and iteration limit", "why_tests_cant": "Tests target a few orbits whose objectives are in the frame of propagation; they show that some runs converge, not what a returned solution guarantees, nor that the Jacobian is a derivative.", "anchors": ["nyx-core/src/md/opti/raphson_hyperdual.rs: try_achieve_dual", "nyx-core/src/md/opti/targeter.rs: delta_v, delta_r, vnc"]}
{"id": "C85", "title": "Multiple shooting", "statement": "A solution of multiple shooting is a chain of maneuvers that changes the velocity only, each starting where and when the previous one arrived and arriving at its node within the tolerance and at its epoch; the number, epochs and frames of the nodes and the last node are those given; the outer Jacobian holds the changes of the corrections per displacement of a node; the iterations end when the cost changes by less than the threshold, relatively; the two costs are the energy and the fuel of the maneuvers.", "quantifier": "every number of nodes, start, cost, iteration limit, dynamics and targeter", "why_tests_cant": "Tests run two transfers whose results are only compared with earlier runs; the Jacobian, the costs and the chaining of the maneuvers are not looked at.", "anchors": ["nyx-core/src/md/opti/multipleshooting/multishoot.rs: solve, cost", "nyx-core/src/md/opti/multipleshooting/ctrlnodes.rs: Node, update_component"]}
{"id": "C86", "title": "First nodes of a multiple shooting", "statement": "The straight line heuristic divides the segment from the start to the destination in equal parts, at equal durations, and its last node is the destination at the epoch of the destination; the altitude heuristic places its nodes at the latitude and longitude of the ballistic trajectory, at equal durations, with altitudes that go linearly to that of the destination, which the last one has; both refuse fewer than three nodes.", "quantifier": "every start, destination, number of nodes, body and ballistic trajectory", "why_tests_cant": "Tests only use the nodes as a first guess and look at the solution.", "anchors": ["nyx-core/src/md/opti/multipleshooting/equidistant_heuristic.rs: equidistant_nodes", "nyx-core/src/md/opti/multipleshooting/altitude_heuristic.rs: linear_altitude_heuristic"]}
{"id": "C87", "title": "Schedules of impulsive burns", "statement": "Shown states in chronological order, a schedule of burns commands no thrust outside its maneuvers, and during a maneuver it commands the vector of this maneuver, from the frame of the maneuver to the inertial one; it moves on when a maneuver is over and never goes back.", "quantifier": "every chronological list of maneuvers, every sequence of states shown and every state", "why_tests_cant": "No test uses a schedule; whether a maneuver is missed depends on the steps of the propagator.", "anchors": ["nyx-core/src/dynamics/deltavctrl.rs: ImpulsiveBurns, ctrl_vector, next"]}
{"id": "C88", "title": "Initial estimates and their uncertainties", "statement": "An estimate built from standard deviations is refused exactly when one is negative or the frame is undefined; otherwise it is the nominal state, with a symmetric positive semi-definite covariance that is the one of independent errors along the axes of the chosen frame; the deviation of an orbital element is that of its linearisation under the covariance; the covariance of the elements is a covariance with these deviations on its diagonal; scaling the estimate scales them; the covariance shown in the RIC frame is that of the errors along its axes; an estimate from dispersions is the dispersed state.", "quantifier": "every state, local frame, rotation, deviations, covariance and orbital element", "why_tests_cant": "The tests build an estimate in the RIC frame and export it in the RIC frame; two rotations in the wrong direction cancel out there, and equal deviations hide them everywhere.", "anchors": ["nyx-core/src/od/estimate/sc_uncertainty.rs: to_estimate, to_estimate_randomized", "nyx-core/src/od/estimate/kfestimate.rs: disperse_from_diag, sigma_for, keplerian_covar", "nyx-core/src/od/process/solution/export.rs: to_parquet"]}
{"id": "C89", "title": "A whole orbit determination: each estimate follows from the one before", "statement": "In the solution of a tracking arc, and of a prediction, the state transition matrix of every estimate is the flow of the dynamics since the previous estimate or is the identity at an unchanged epoch, never a flow since the start; every predicted covariance is the previous covariance mapped by it, plus a process noise that is itself a covariance, and exactly mapped without process noise; every covariance is symmetric positive semi-definite; and with positive definite measurement noises the filter never fails on a singular matrix.", "quantifier": "every tracking arc, device list, propagator, step limits, filter variant, rejection criterion, initial estimate and process noises", "why_tests_cant": "The tests compare the end of a few arcs with the truth; a matrix not reset between two updates only widens or narrows covariances along the way.", "anchors": ["nyx-core/src/od/process/mod.rs: process_arc, predict_until", "nyx-core/src/od/kalman/filtering.rs: time_update, measurement_update"]}
{"id": "C90", "title": "Tracking arcs survive a parquet file", "statement": "A non-empty tracking arc can be written to parquet, and a file with an observable is read back as the same measurements: in the same order, at the same epochs, from the same trackers, with exactly the observables and values they had; selecting epochs writes exactly the measurements of the selected epochs.", "quantifier": "every tracking arc, export configuration, observable set and epoch", "why_tests_cant": "The tests write and read arcs whose measurements all carry the same range and Doppler; a missing observable, a rejected measurement, or another measurement type never goes through the file.", "anchors": ["nyx-core/src/od/msr/trackingdata/io_parquet.rs: to_parquet, from_parquet", "nyx-core/src/od/msr/types.rs: to_field"]}
{"id": "C91", "title": "Trajectories survive a parquet file", "statement": "A spacecraft trajectory written to parquet, with the default fields or any that contain them, is read back as the same states: the same epochs in order, frame, position, velocity, masses, coefficients, guidance mode, thruster and thrust direction.", "quantifier": "every trajectory, field selection, frame, thruster, thrust direction and guidance mode", "why_tests_cant": "The tests read back ballistic trajectories and compare positions; directions, coefficients and mixed thrusters are never compared after a round trip.", "anchors": ["nyx-core/src/md/trajectory/traj.rs: to_parquet", "nyx-core/src/md/trajectory/sc_traj.rs: from_parquet", "nyx-core/src/md/param.rs: to_field"]}
{"id": "C92", "title": "Orbit determination solutions survive a parquet file", "statement": "A solution whose lists are aligned and whose estimates all have what the first one has is written by to_parquet, and only such a solution is. When no epochs are asked for, from_parquet of the file gives back every estimate (orbit, masses, coefficients, symmetric covariance from the upper triangle), every residual (by type: prefit, postfit, noise, observations; ratio, rejection, tracker), every gain and every filter-smoother ratio, whatever order the hash map of the types iterates in. It does not give back the whitened residuals, the gains when there are more types than measurements at a time, the frequencies, the areas of the later estimates, the extra masses or the thrusters; reading panics when a frequency is among as many types as there are measurements at a time; and no file is written when the epochs asked for leave an estimate out.", "quantifier": "for all solutions, export configurations, measurement sizes and hash map orders", "why_tests_cant": "A test writes and reads one solution of one scenario with one set of types; what is lost depends on the number of types compared with the size of the measurements, on which types they are, on which estimates have thrusters, on the epochs asked for and on the order of a hash map.", "anchors": ["nyx-core/src/od/process/solution/export.rs:61-660", "nyx-core/src/od/process/solution/import.rs:77-560", "nyx-core/src/od/estimate/residual.rs:34-181", "nyx-core/src/od/msr/types.rs:172-189"]}
{"id": "C93", "title": "Random directions and execution errors of maneuvers", "statement": "unit_vector_from_seed returns unit vectors only, every unit vector for some draws, and each slice of the sphere as often as its area: the height is uniform whatever the longitude. dv_pointing_error refuses exactly the percentages out of [0, 1) and the nil delta-v; what it should return is a delta-v of the same magnitude pointing elsewhere by the drawn angle, and the same delta-v when no error is asked for. What it returns is the delta-v times a cosine: it never points elsewhere, a delta-v along the current pointing is kept, one against it is reversed and one across it is cancelled even without an error; dv_execution_error then has the magnitude of what is left plus the drawn error, and NaNs if nothing is left.", "quantifier": "for all delta-v vectors, pointings, percentages and draws", "why_tests_cant": "The test draws a thousand random vectors and only checks that the magnitude does not grow; that the direction never changes, or that every direction can be drawn as often as its area, are statements about all draws.", "anchors": ["nyx-core/src/mc/helpers.rs:25-32", "nyx-core/src/mc/helpers.rs:37-67", "nyx-core/src/mc/helpers.rs:70-82"]}
{"id": "C94", "title": "Normalised estimation errors of an orbit determination", "statement": "nees_consistency of a solution with a true trajectory sums, over all the estimates but the first, the error of the estimate weighted by the inverse of its covariance, over the estimated components (those before the first one without a variance in the second estimate, at least six), with as many degrees of freedom as estimates times components; it refuses fewer than two estimates and epochs out of the truth; its bounds are in order and a sum that is not a bound has exactly one verdict. This holds when the smallest variance of each covariance is above the rounding of the largest one; the sum is otherwise never more than that for definite covariances. It does not hold in general: errors along a direction whose variance is below that rounding do not count, and estimates with no covariance at all are declared under-confident whatever their errors.", "quantifier": "for all solutions, true trajectories, levels and state sizes of at least six", "why_tests_cant": "A test evaluates one solution whose covariances happen to be well conditioned; that the pseudo-inverse gives the normalised error for every such covariance, and what is lost for others, are statements about all matrices.", "anchors": ["nyx-core/src/od/process/solution/stats.rs:358-494", "nyx-core/src/od/process/solution/stats.rs:38-70"]}
{"id": "C95", "title": "Izzo's velocities take the time of flight that was asked for", "statement": "The velocities that izzo returns take the departure to the arrival, under Newton's law and with the requested number of revolutions, in the requested time of flight plus the value of the time equation at the x that the search accepted (in the unit sqrt(s^3 / 2 mu)): exactly the requested time when that x is a root, whatever the branch (series near the parabola, ellipse, hyperbola) that computed it. The three derivatives that the search steps with are those of that time equation.", "quantifier": "all positions not aligned with the body and whose transfer plane has no normal towards negative z, all times of flight and gravitational parameters, all transfer kinds and numbers of revolutions, all accepted x above -1 (below 1 with revolutions); derivatives at all x off the parabola", "why_tests_cant": "the tests compare a handful of published velocities to a few digits; that the two formulas of the time of flight (Battin's series, inverse functions) agree with each other and with the motion for every geometry is an identity over the reals", "anchors": ["nyx-core/src/tools/lambert/izzo.rs:44-135", "nyx-core/src/tools/lambert/izzo.rs:202-263", "nyx-core/src/tools/lambert/izzo.rs:347-366", "nyx-core/src/tools/lambert/izzo.rs:406-439"]}
{"id": "C96", "title": "The orbits and the asymptote of a Lambert transfer", "statement": "The orbits that a Lambert solution gives for the transfer and the arrival are at the places and times of the two bodies with the velocities solved for, and lie on one conic. The velocity vectors at infinity, the declination and the right ascension of the departure asymptote and the characteristic energy are all those of the velocity of the spacecraft with respect to the body: the vector returned for the departure points along the declination and right ascension returned for it, and its square is the energy.", "quantifier": "all pairs of states in one frame with a gravitational parameter, all transfer kinds, all solutions", "why_tests_cant": "the tests print these quantities or compare one of them for one transfer; that the vector, the angles and the energy describe the same velocity is a relation between four functions, for every solution", "anchors": ["nyx-core/src/tools/lambert/mod.rs:122-172", "nyx-core/src/tools/lambert/mod.rs:75-120"]}
{"id": "C97", "title": "Integrator options keep their steps in order", "statement": "However integrator options are built and then changed, the smallest step is positive and the initial step lies between the smallest and the greatest; a propagator started with them never tries an adaptive step outside these bounds, for any number of steps. with_max_step starts with the step given.", "quantifier": "all constructors, all sequences of setters, all dynamics, all numbers of steps", "why_tests_cant": "the tests build a few options and check their fields; sequences of setters and the steps that follow from them are unbounded", "anchors": ["nyx-core/src/propagators/options.rs:62-186", "nyx-core/src/propagators/propagator.rs:53-125"]}
{"id": "C98", "title": "Process noise from velocity errors has their variance", "statement": "A process noise built from velocity errors over a duration adds, over a propagation of that duration, the variance of these errors (their square) to each velocity of the estimate, and nothing after the disabling time. A noise set on an existing filter is applied like one given when the filter is built.", "quantifier": "all errors, durations, initial estimates, transition matrices, filter variants", "why_tests_cant": "the only test compares the built diagonal with the formula of the code; that the covariance then grows by the square of the error is a relation between a constructor, the time update and the units", "anchors": ["nyx-core/src/od/snc.rs:295-318", "nyx-core/src/od/kalman/filtering.rs:322-325", "nyx-core/src/od/kalman/filtering.rs:59-99"]}
{"id": "C99", "title": "Tracking arcs that compare equal hold the same measurements", "statement": "Equality of measurements and of tracking arcs is an equivalence, and equal arcs hold, one by one, measurements of the same tracker and epoch with the same observables to within 1e-10 and the same rejection.", "quantifier": "all pairs and triples of arcs with one value per observable", "why_tests_cant": "the tests use the equality to conclude that arcs survived a file; whether it can conclude so for every pair of arcs is not something a pair of arcs shows", "anchors": ["nyx-core/src/od/msr/measurement.rs:123-136", "nyx-core/src/od/msr/trackingdata/mod.rs:541-545"]}
{"id": "C100", "title": "Named radio links have their documented levels and better ones are less noisy", "statement": "The named signal and carrier to noise densities are the documented decibels, like the manual ones, and with any clock the noise of a range decreases with the signal and the chip rate, that of a Doppler with the carrier to noise density, the carrier and the integration time.", "quantifier": "all clocks, integration times, levels, carriers and chip rates, named or manual", "why_tests_cant": "the tests compute the noise of two clocks for one link; monotonicity and the conversion of decibels are statements over all values", "anchors": ["nyx-core/src/od/noise/link_specific.rs:38-223"]}
{"id": "C101", "title": "A position device measures the coordinates that it names", "statement": "However a position device is built, each observable X, Y, Z that it offers is the coordinate of that name of the spacecraft at the epoch, plus the noise configured for it; its constant bias is present once in simulated measurements and removed by the process, so that the residual at the true state is the noise alone; the sensitivity row of an observable is the derivative of the coordinate that it names, and zero for those not measured.", "quantifier": "every device built by any sequence of with_noise calls, every trajectory and epoch, every state, every stream of random numbers", "why_tests_cant": "The only test builds a device of X, Y and Z in this order without bias; the place of an observable in the device decides which coordinate is measured, so other orders and subsets go wrong unnoticed.", "anchors": ["nyx-core/src/od/position/mod.rs:21-41", "nyx-core/src/od/position/trk_device.rs:17-118", "nyx-core/src/od/position/sensitivity.rs:15-81", "nyx-core/src/od/process/mod.rs:313-333"]}
{"id": "C102", "title": "The solution of a ground asset is written whole", "statement": "A non-empty solution of a ground asset whose residuals, gains and ratios are aligned with its estimates is written to a parquet file with one line per estimate: the coordinates of its state, their standard deviations and covariances, its residuals by observable, its gains under the names of their observables and its ratios; restricting the dates writes the lines within them.", "quantifier": "every solution, whatever its observables, every export configuration", "why_tests_cant": "A file is either written or not and its columns are named apart from being filled; tests export one solution with two observables and no dates.", "anchors": ["nyx-core/src/od/groundpnt/solution.rs:58-527", "nyx-core/src/od/groundpnt/mod.rs:373-443"]}
{"id": "C103", "title": "The difference between two trajectories is written date by date", "statement": "The file of differences between two trajectories has one row for each date common to both, from the start to the end asked for: the RIC difference between the states of both at this date, and for each field asked for its value in one minus its value in the other.", "quantifier": "every pair of trajectories, every export configuration", "why_tests_cant": "The differences pass through a filter in place whose effect depends on all of them; tests compare two nearly equal trajectories and read the file by eye.", "anchors": ["nyx-core/src/md/trajectory/traj.rs:411-598", "nyx-core/src/md/trajectory/mod.rs:77-123"]}
{"id": "C104", "title": "Trajectories and solutions survive the exchange as ephemerides", "statement": "The ephemeris exported from a trajectory has one record per epoch in chronological order, with the orbit the trajectory has there, over the whole part asked for; read back on a template spacecraft, it is the trajectory that was exported. A trajectory read from an SPK file has the orbits of the file at every step from the start to the end. The ephemeris of an orbit determination solution has the last estimate at each epoch with its covariance of position and velocity.", "quantifier": "every trajectory, every solution, every template, start, end and step", "why_tests_cant": "Tests export one propagated trajectory with one configuration and read it back on the same template; they never have repeated epochs, parts outside of the trajectory, or changing masses.", "anchors": ["nyx-core/src/md/trajectory/sc_traj.rs:53-88", "nyx-core/src/md/trajectory/sc_traj.rs:157-211", "nyx-core/src/od/process/solution/export.rs:670-688"]}
{"id": "C105", "title": "The file of Monte Carlo results has every state of every successful run", "statement": "The parquet file of Monte Carlo results has, for each successful run in order, one line per state of its trajectory between the start and the end asked for, which default to those of this trajectory, at every step or else at every state: its date, the index of its run and the value of each field, null exactly when the state does not have it. Failed runs have no line, and without a successful run an error is returned.", "quantifier": "every list of runs, every export configuration, every set of fields", "why_tests_cant": "Tests export runs of the same duration that all succeed; the defaults come from one run and are used for all, which matters only when the runs differ.", "anchors": ["nyx-core/src/mc/results.rs:242-423", "nyx-core/src/io/mod.rs:49-68"]}
{"id": "C106", "title": "The Jacobian of the targeter is the slope of each objective along each variable", "statement": "Every entry of the Jacobian that the targeter inverts is the slope of the objective from the current state and maneuver to those with the variable moved by its perturbation (the other way when it would leave the bounds): a component of the position or velocity, along the correction frame if there is one, a component of the direction of thrust or of its rate or acceleration, the level of thrust, a date of the maneuver or its duration.", "quantifier": "every targeter, state, maneuver, objective, variable and dynamics", "why_tests_cant": "Tests check that targeting converges, which it can do in spite of wrong entries; the claim is about each entry for any dynamics.", "anchors": ["nyx-core/src/md/opti/raphson_finite_diff.rs:324-530", "nyx-core/src/md/opti/target_variable.rs:106-119"]}
{"id": "C107", "title": "The trajectories built from a multiple shooting solution join up and go through its nodes", "statement": "The trajectories built from the solution of a multiple shooting with the same propagation can always be built, one per node: the first begins at the initial orbit, each one begins where the one before it ends with its velocity changed by the impulse of the solution and nothing else, and each one ends at the epoch of its node within a meter of it along each axis (and within a meter per second of its speed, with four objectives). Otherwise an error names the first segment whose objectives are not met.", "quantifier": "every multiple shooting with a solution, every number of nodes, every cost function, every propagation that reaches the same orbits with and without the transition matrix", "why_tests_cant": "A test builds the trajectories of one landing; the claim is about every chain of segments, every solution and the agreement of two different targeters (with partials for solving, with the plain check for building).", "anchors": ["nyx-core/src/md/opti/multipleshooting/multishoot.rs:347-371", "nyx-core/src/md/opti/targeter.rs:256-351"]}
{"id": "C108", "title": "Control nodes survive their file", "statement": "A list of control nodes converted for a file and read again is the same list; what is read has, node by node and in order, the coordinates, frame, epoch and speed of the file, a missing speed being zero; an epoch that cannot be read is reported as an error.", "quantifier": "every list of nodes, every text", "why_tests_cant": "The test reads one well formed file; it cannot show that no node is lost, reordered or changed for all lists, nor what happens for every malformed epoch.", "anchors": ["nyx-core/src/md/opti/multipleshooting/ctrlnodes.rs:30-68", "nyx-core/src/md/opti/multipleshooting/ctrlnodes.rs:141-167"]}
{"id": "C109", "title": "A randomized initial estimate is dispersed by exactly the uncertainty it declares", "statement": "The randomized estimate of an uncertainty is the estimate of this uncertainty with another nominal state, drawn with the nominal state as mean and the covariance of the estimate as covariance; the covariance, the deviation and the transition matrix are those of the estimate that is not randomized, the dry mass is kept, and it is refused exactly when that one is. The state drawn is one of a possible spacecraft.", "quantifier": "every uncertainty and frame, every draw, every distribution of draws that are uncorrelated, of mean zero and of variance one", "why_tests_cant": "A test runs one seed, or estimates moments from finitely many draws; that the mean and covariance are exact for every uncertainty, and that no draw panics, is about all of them.", "anchors": ["nyx-core/src/od/estimate/sc_uncertainty.rs:139-162", "nyx-core/src/mc/multivariate.rs:219-331"]}
{"id": "C110", "title": "The ground track of a trajectory has its position over the body at every minute", "statement": "The ground track file of a trajectory has one row for every whole minute from its first state to its last, in chronological order, each with the latitude, longitude, height and distance that the trajectory has at that date in the body fixed frame; an element that no row has is left out, an element that some row lacks is marked as nullable; there is no file when a state cannot be expressed in the body fixed frame, nor of an empty trajectory.", "quantifier": "every trajectory, every body fixed frame", "why_tests_cant": "The test exports one propagated trajectory and does not read the rows back; it does not vary the spans, the frames, nor the dates at which an element cannot be computed.", "anchors": ["nyx-core/src/md/trajectory/sc_traj.rs:133-156", "nyx-core/src/md/trajectory/traj.rs:180-330"]}
{"id": "C111", "title": "Steering efficiency is the share of the best rate on the orbit", "statement": "The efficiency of correcting an orbital element at a point of an elliptical orbit is the fastest rate at which a thrust of unit size changes that element there, divided by the fastest rate at which it does so anywhere on the same orbit, so that a threshold of 0.9 keeps the thrust where at least nine tenths of the best effect is had.", "quantifier": "every elliptical orbit, position on it and supported element", "why_tests_cant": "The denominator is a maximum over all positions and directions of thrust, and the rates are derivatives; a test evaluates the closed formula at a few points.", "anchors": ["nyx-core/src/dynamics/guidance/ruggiero.rs: efficiency, weighting"]}
{"id": "C112", "title": "The Ruggiero law blends its objectives by what remains of their errors", "statement": "With several objectives, the Ruggiero law thrusts in the direction of the sum of the directions it would command for each objective alone, each multiplied by the share of the initial error that remains; an objective that is met, or whose efficiency is below its threshold, does not count. The throttle is zero when no objective counts, and one when a single objective counts.", "quantifier": "every list of objectives with thresholds, every initial and current state, every external orbital element computation", "why_tests_cant": "Tests fly a few transfers and look at the final orbit; how any number of objectives combine at every state is not observed.", "anchors": ["nyx-core/src/dynamics/guidance/ruggiero.rs: weighting, direction, throttle"]}
{"id": "C113", "title": "The Kluever law blends its objectives by their weights", "statement": "With several objectives on Keplerian elements, the Kluever law thrusts in the direction of the sum of the directions it would command for each unmet objective alone, each multiplied by its weight and by the size of the gradient of its element; met objectives and those of zero weight do not count; when none counts, the direction is along the motion.", "quantifier": "every list of objectives and non-negative weights, every elliptical orbit and position, every external orbital element computation", "why_tests_cant": "Tests fly a few transfers and look at the final orbit; how any number of objectives combine at every state is not observed.", "anchors": ["nyx-core/src/dynamics/guidance/kluever.rs: direction"]}
{"id": "C114", "title": "The built-in Deep Space Network stations are usable as they are and at their antennas", "statement": "Each of the built-in stations (Madrid, Canberra, Goldstone) measures the range and the range rate of a spacecraft in view at the instant asked for, each with one sample of the noise given for it and none on the time tag, tells the filter the variances of these noises, applies the elevation mask given, and is located at the antenna it is named after (a hundredth of a degree).", "quantifier": "every mask, every pair of noises, every draw of the generator, every epoch and geometry", "why_tests_cant": "Tests simulate and estimate with the same station, so that a wrong location cancels out, and with fixed seeds and noises.", "anchors": ["nyx-core/src/od/ground_station/builtin.rs: dss65_madrid, dss34_canberra, dss13_goldstone"]}
