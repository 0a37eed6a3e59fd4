{
 "claims": [
  {
   "property": "C01",
   "status": "proved",
   "theorems": [
    "C01_stop_epoch",
    "C01_until_epoch"
   ],
   "note": ""
  },
  {
   "property": "C02",
   "status": "proved",
   "theorems": [
    "C02_forward_epochs",
    "C02_backward_epochs"
   ],
   "note": ""
  },
  {
   "property": "C03",
   "status": "proved",
   "theorems": [
    "C03_forward_terminates",
    "C03_backward_terminates"
   ],
   "note": ""
  },
  {
   "property": "C04",
   "status": "partial",
   "theorems": [
    "C04_attempts",
    "C04_forward_step",
    "C04_backward_tolerance_refuted"
   ],
   "note": "Attempt bound and forward step limits are proved; the tolerance claim is false for backward propagation (the minimum-step comparison is signed), shown by a witness."
  },
  {
   "property": "C05",
   "status": "partial",
   "theorems": [
    "C05_config_kept_forward",
    "C05_config_kept_backward",
    "C05_zero_duration",
    "C05_backward_stop_refuted",
    "C05_failed_last_step_refuted"
   ],
   "note": "Proved for runs that reach their stop epoch; false for a backward run stopped early by a condition and for a run whose last step fails, shown by witnesses."
  },
  {
   "property": "C06",
   "status": "proved",
   "theorems": [
    "C06_fixed_step_composes",
    "C06_fixed_step_composes_backward"
   ],
   "note": ""
  },
  {
   "property": "C07",
   "status": "proved",
   "theorems": [
    "C07_first_satisfying_state"
   ],
   "note": ""
  },
  {
   "property": "C08",
   "status": "proved",
   "theorems": [
    "C08_order_conditions",
    "C08_quadrature",
    "C08_quadrature_exact",
    "C08_linear"
   ],
   "note": "Exact for every method but DormandPrince78, whose published rational coefficients meet the conditions within 1e-17; SQRT6 of rk.rs is taken as the exact root."
  },
  {
   "property": "C09",
   "status": "partial",
   "theorems": [
    "C09_nonneg",
    "C09_zero_iff",
    "C09_monotone",
    "C09_proportional",
    "C09_direction_partial",
    "C09_direction_refuted",
    "C09_mass_error_ignored"
   ],
   "note": "Non-negativity, vanishing, monotonicity and proportionality hold for all seven estimators; independence of direction holds for six and is refuted for LargestError, which compares a signed displacement with its threshold."
  },
  {
   "property": "C10",
   "status": "partial",
   "theorems": [
    "C10_finalize_partial",
    "C10_distinct_epochs_refuted"
   ],
   "note": "Sorted, nothing invented, every epoch kept, for all lists; each epoch once when equal epochs are adjacent in the input. Duplicates that are not adjacent survive because the removal runs before the sort: C10_distinct_epochs_refuted."
  },
  {
   "property": "C11",
   "status": "proved",
   "theorems": [
    "C11_forward_traj",
    "C11_backward_traj",
    "C11_schedule_independent"
   ],
   "note": "For any permutation of the recorded states."
  },
  {
   "property": "C12",
   "status": "partial",
   "theorems": [
    "C12_stored",
    "C12_outside",
    "C12_between_partial",
    "C12_window_refuted",
    "C12_no_panic"
   ],
   "note": "The window surrounds the epoch except for a trajectory of exactly 13 states queried in its first interval: C12_window_refuted."
  },
  {
   "property": "C13",
   "status": "partial",
   "theorems": [
    "C13_grid_partial",
    "C13_early_start_refuted",
    "C13_truncated",
    "C13_zero_step_refuted"
   ],
   "note": "Exact grid for a positive step when every query on it succeeds. A start before the trajectory re-anchors the grid (C13_early_start_refuted); a failing query silently truncates it (C13_truncated); a zero step never ends (C13_zero_step_refuted)."
  },
  {
   "property": "C14",
   "status": "partial",
   "theorems": [
    "C14_filter_by_epoch",
    "C14_filter_by_offset_partial",
    "C14_offset_excluded_refuted"
   ],
   "note": "The epoch filter is exact for all bounds. The offset filter is exact for included and missing bounds; excluded ones are treated as included: C14_offset_excluded_refuted."
  },
  {
   "property": "C15",
   "status": "proved",
   "theorems": [
    "C15_add"
   ],
   "note": "Both trajectories non-empty; an empty one panics in the code."
  },
  {
   "property": "C16",
   "status": "partial",
   "theorems": [
    "C16_sort_partial",
    "C16_sum",
    "C16_later_wins_refuted",
    "C16_idempotent",
    "C16_order_independent",
    "C16_sum_moduli_refuted"
   ],
   "note": "Proved for every sorting function, stable or not, except that the later input wins for an observable given twice: the code's sort is unstable (C16_later_wins_refuted). The sum of two arcs has the measurements of both (C16_sum) but loses the moduli of the right one (C16_sum_moduli_refuted)."
  },
  {
   "property": "C17",
   "status": "proved",
   "theorems": [
    "C17_chunk",
    "C17_not_positive"
   ],
   "note": ""
  },
  {
   "property": "C18",
   "status": "partial",
   "theorems": [
    "C18_epoch_filters",
    "C18_tracker_filters",
    "C18_reject",
    "C18_offset_filter_partial",
    "C18_offset_refuted",
    "C18_type_filter",
    "C18_type_exclusion_partial",
    "C18_type_exclusion_refuted"
   ],
   "note": "Epoch, tracker and type filters exact. The offset filter ignores the kind of its bounds and drops the last epoch of an unbounded range (C18_offset_refuted); excluding a type leaves measurements without observables (C18_type_exclusion_refuted)."
  },
  {
   "property": "C19",
   "status": "partial",
   "theorems": [
    "C19_apply",
    "C19_set_moduli",
    "C19_resolve_partial",
    "C19_recovers_partial",
    "C19_negative_refuted",
    "C19_boundary_refuted"
   ],
   "note": "Exact arithmetic. Reduction proved; the prefit bound holds for non-negative observations; a negative observable is off by one modulus even with a perfect prediction (C19_negative_refuted), and so is one near a wrap (C19_boundary_refuted)."
  },
  {
   "property": "C20",
   "status": "partial",
   "theorems": [
    "C20_downsample",
    "C20_decimation",
    "C20_coverage_refuted",
    "C20_rejected_refuted",
    "C20_unsorted_panics",
    "C20_settings",
    "C20_moduli_refuted"
   ],
   "note": "Statement proved for time-ordered arcs with the ratio computed exactly; the tracker coverage of the title fails (C20_coverage_refuted), rejection flags are lost (C20_rejected_refuted) and an unsorted arc can panic. Refuted as well: a sampled arc loses its moduli, so that its ambiguous observations are taken as whole ones (C20_moduli_refuted)."
  },
  {
   "property": "C21",
   "status": "partial",
   "theorems": [
    "C21_round_trip_partial",
    "C21_same_arc",
    "C21_rejected_refuted",
    "C21_frequency_refuted",
    "C21_time_scale_refuted",
    "C21_position_refuted",
    "C21_angle_refuted",
    "C21_units_ignored"
   ],
   "note": "Proved on the text of the file: for an arc of range, Doppler and angle data written with UTC times, reading the export back gives the same trackers, epochs and observable types, each value within the last printed digit (exactly, for stored doubles with the printed modulus), once per tracker and epoch, in order; and with no window the list of measurements has the same length and order. Contracts on date and number formatting are shown satisfiable. Refuted in full: rejected flags are lost, frequencies without a turn-around ratio are dropped, arcs stored in another time scale shift, position observables are dropped or fail to read, angles after a two-way section are halved; range units are never read."
  },
  {
   "property": "C22",
   "status": "partial",
   "theorems": [
    "C22_eager_no_overlap",
    "C22_greedy_no_overlap_partial",
    "C22_greedy_overlap_refuted",
    "C22_visible",
    "C22_visible_aligned",
    "C22_visible_refuted",
    "C22_ordered_refuted",
    "C22_samples_refuted",
    "C22_overlap_exact",
    "C22_cadence",
    "C22_empty_schedule_refuted"
   ],
   "note": "Eager handoff: no overlap for any windows. Greedy: no overlap when no window contains another; refuted in general (only consecutive strands are compared). Strands stay in visibility without alignment, within half the alignment otherwise; ordering and minimum samples are refuted after an eager handoff; an empty schedule underflows."
  },
  {
   "property": "C23",
   "status": "proved",
   "theorems": [
    "C23_sampling_grid",
    "C23_terminates"
   ],
   "note": "Exact characterisation of the simulated epochs for devices whose visibility does not depend on the noise and which stamp the requested epoch; terminates for positive samplings."
  },
  {
   "property": "C24",
   "status": "proved",
   "theorems": [
    "C24_accepted_iff",
    "C24_simulator_iff",
    "C24_built",
    "C24_rejected_device_ignored_refuted",
    "C24_zero_sampling_refuted"
   ],
   "note": "The acceptance condition is exact; rejected devices still measure and a zero sampling is accepted (refuted variants)."
  },
  {
   "property": "C25",
   "status": "partial",
   "theorems": [
    "C25_scheduler_round_trip",
    "C25_strand_round_trip",
    "C25_trkconfig_round_trip",
    "C25_trkconfig_encodes",
    "C25_codes_round_trip",
    "C25_thruster_round_trip",
    "C25_noise_round_trip_partial",
    "C25_sampled_noise_refuted",
    "C25_station_round_trip_partial",
    "C25_spacecraft_round_trip_partial"
   ],
   "note": "Round trips and exact consumption for schedulers, strands, tracking configurations, handoffs, guidance modes, measurement types, thrusters, ground stations and noise models never sampled, for any codec of REAL values and locations that round trips. The full claim is false for a Gauss-Markov process that was sampled: its last epoch and sample are not encoded (refuted theorem). Spacecraft come back without thrust direction and STM."
  },
  {
   "property": "C26",
   "status": "proved",
   "theorems": [
    "C26_covariance",
    "C26_estimates"
   ],
   "note": "every sequence of time and measurement updates, accepted or rejected or failed, over every real closed field; matrices over exact numbers, not floating point"
  },
  {
   "property": "C27",
   "status": "proved",
   "theorems": [
    "C27_optimal",
    "C27_succeeds"
   ],
   "note": "gain solves K S = P H^T, covariance is P - K S K^T, at most the prior and at most that of any other gain; the update succeeds with positive definite noise"
  },
  {
   "property": "C28",
   "status": "partial",
   "theorems": [
    "C28_rejection",
    "C28_force_reject_refuted"
   ],
   "note": "rejection decided by the ratio and then identical to a time update; refuted for a tracker marked rejected whose prefit is exactly zero, the threshold of zero sigmas accepts it"
  },
  {
   "property": "C29",
   "status": "proved",
   "theorems": [
    "C29_sequential_is_joint",
    "C29_any_order"
   ],
   "note": "both filter variants; sequential equals joint, and either order gives the same covariance and deviation"
  },
  {
   "property": "C30",
   "status": "partial",
   "theorems": [
    "C30_noise",
    "C30_grows",
    "C30_built",
    "C30_start",
    "C30_six_refuted",
    "C30_correlations_refuted"
   ],
   "note": "the last applicable process noise, its explicit content for three accelerations, never takes variance away; refuted: six accelerations on a nine component spacecraft panic, and correlations of a noise given in a local frame are dropped Filters built with one decaying or starting noise are followed from the constructor (C30_built, C30_start)."
  },
  {
   "property": "C31",
   "status": "partial",
   "theorems": [
    "C31_visits",
    "C31_order",
    "C31_terminates",
    "C31_precision_refuted",
    "C31_precision_loop_refuted",
    "C31_gap_refuted",
    "C31_backward_refuted",
    "C31_back_in_time_refuted"
   ],
   "note": "Visits, order of the solution and termination are proved for a positive epoch precision. Not as stated: the gap between filter updates can exceed the maximum step (unknown trackers, measurements before the initial epoch), a measurement flagged as rejected can put the solution back in time by less than twice the epoch precision, and a null precision never terminates; each is refuted with a witness."
  },
  {
   "property": "C32",
   "status": "partial",
   "theorems": [
    "C32_predict_partial",
    "C32_divisible",
    "C32_terminates",
    "C32_duration",
    "C32_end_refuted",
    "C32_step_refuted"
   ],
   "note": "Epochs are the initial one plus multiples of the maximum step. The last one is the requested one only when the span is a positive multiple of the step; otherwise it is past it (refuted), and a maximum step that is not positive loops (refuted)."
  },
  {
   "property": "C33",
   "status": "proved",
   "theorems": [
    "C33_aligned",
    "C33_split",
    "C33_accepted_rejected",
    "C33_kind",
    "C33_lookup"
   ],
   "note": "Any sequence of pushes, filters, splits and drops keeps the four lists aligned; lookups and the accepted/rejected partition hold. Filters that need a residual are exact. A solution is that of a filter (smoother) when some update has a gain (ratio)."
  },
  {
   "property": "C34",
   "status": "partial",
   "theorems": [
    "C34_merge_partial",
    "C34_chronological_inputs",
    "C34_inverse_order",
    "C34_chronological_refuted"
   ],
   "note": "The merged lists hold every update of both solutions and stay aligned with each other; chronological order holds when the sorting permutation is its own inverse or the inputs already follow one another, and is false in general: the inverse permutation is applied (refuted with a witness)."
  },
  {
   "property": "C35",
   "status": "partial",
   "theorems": [
    "C35_smooth_partial",
    "C35_ratios",
    "C35_singular",
    "C35_covariances",
    "C35_chain_refuted",
    "C35_residuals_refuted",
    "C35_short_refuted"
   ],
   "note": "lengths, order, last estimate unchanged, each earlier estimate from the next filtered one; consistency ratios; fails iff singular; covariances stay covariances; refuted: chain from the later smoothed estimate, residuals aligned with their epoch, solutions with fewer than two estimates"
  },
  {
   "property": "C36",
   "status": "partial",
   "theorems": [
    "C36_rms_prefit_scaled",
    "C36_rms_ratio_scaled",
    "C36_rms_postfit_scaled",
    "C36_rms_partial",
    "C36_rms_time_updates_refuted",
    "C36_rms_postfit_rejected_refuted",
    "C36_within_threshold",
    "C36_ks_partial",
    "C36_ks_single_refuted",
    "C36_nis",
    "C36_nis_verdict",
    "C36_is_normal_partial"
   ],
   "note": "Reported RMS are scaled by the share of measurements among updates (refuted when time updates are present) and the postfit RMS is NaN with a rejected residual (refuted); threshold share exact; normality statistic within 1/n of the Kolmogorov-Smirnov distance; innovation test sum, degrees of freedom and verdicts as defined. Over real numbers; the verdict of normality compares the distance with a critical value that is too large by the root of the size of the measurements (C36_is_normal_partial); the NEES test is C94."
  },
  {
   "property": "C37",
   "status": "partial",
   "theorems": [
    "C37_normal_equations",
    "C37_covariance",
    "C37_solution",
    "C37_evaluate",
    "C37_not_after",
    "C37_stm_refuted",
    "C37_simultaneous_refuted",
    "C37_twice_refuted",
    "C37_prior_refuted",
    "C37_kf_estimate_refuted"
   ],
   "note": "Proved: an iteration of the normal equations never fails by itself, applies the unique minimizer of the linearized weighted cost plus the square norm of the correction, and the covariance is the inverse of the information plus the identity; with strictly increasing epochs every usable measurement is used at its epoch, and exactly once when epochs and steps share a grid no finer than the precision; evaluate agrees with an iteration; what a solution reports. Refuted: simultaneous measurements are dropped, a measurement just after a full step counts twice, the state transition matrix is accumulated twice, an unrequested unit prior, the covariance handed to the filter is not one."
  },
  {
   "property": "C38",
   "status": "partial",
   "theorems": [
    "C38_damped_step",
    "C38_damping_range",
    "C38_reported_residuals",
    "C38_refused_forever",
    "C38_worse_refuted"
   ],
   "note": "Proved: the damped step, its acceptance test and its baseline; the damping stays in its range; the reported residuals are no worse than those of the initial guess; after a refused step every later one is refused. Refuted: the first correction is applied unchecked, so the returned estimate can fit worse than the guess while the solution reports the residuals of the guess."
  },
  {
   "property": "C39",
   "status": "partial",
   "theorems": [
    "C39_white_new",
    "C39_gauss_markov_new_partial",
    "C39_pr_n0",
    "C39_gauss_markov_new_refuted",
    "C39_variance",
    "C39_white_samples",
    "C39_history",
    "C39_decay_refuted",
    "C39_first_variance",
    "C39_later_variance_partial",
    "C39_variance_refuted",
    "C39_scaled_samples_partial",
    "C39_scaled_bias_partial",
    "C39_scaling_refuted",
    "C39_hardware"
   ],
   "note": "Constructors of white noise, variances (sum, scale), white samples and every history of Gauss-Markov samples are characterised. Refuted: negative process noise is accepted; the first draw does not fade with the time since the first sample but since the previous one; the variance of later samples is not the reported one; scaling drops the constant bias. Draws are modelled by their first two moments."
  },
  {
   "property": "C40",
   "status": "partial",
   "theorems": [
    "C40_mode",
    "C40_overshoot_refuted",
    "C40_short_burn_skipped_refuted",
    "C40_inhibit_refuted",
    "C40_from_impulsive_refused_refuted",
    "C40_impulsive"
   ],
   "note": "The mode and throttle of every state sent or returned by a propagation follow the maneuver's closed interval. Refuted parts: the mode only changes at the end of a step, so a burn overshoots its end by up to a step and a burn between two steps is skipped; an inhibited spacecraft is put into thrust mode; a maneuver made from an impulsive \u0394v is refused by the equations of motion unless the \u0394v has norm one. An impulsive maneuver burns at full throttle during the millisecond after its date."
  },
  {
   "property": "C41",
   "status": "partial",
   "theorems": [
    "C41_never_negative",
    "C41_constant",
    "C41_coasting_step",
    "C41_consumption",
    "C41_consumption_rate",
    "C41_steady_never_increases",
    "C41_never_increases_partial",
    "C41_zero_duration_refuted",
    "C41_increase_refuted"
   ],
   "note": "Non-negativity, constancy without thrust, consumption at throttle*thrust/(isp*g0) times the sum of the weights and monotonicity for laws whose throttle follows the mode. Monotonicity for an arbitrary law is proved for methods with non-negative weights only and is false otherwise (DormandPrince45 replaying a short burn gains propellant); a propagation of no duration returns its state unchecked."
  },
  {
   "property": "C42",
   "status": "partial",
   "theorems": [
    "C42_kluever_mode",
    "C42_inhibited_unchanged",
    "C42_ruggiero_mode_partial",
    "C42_kluever_new",
    "C42_kluever_from_max_eclipse",
    "C42_ruggiero_built",
    "C42_ruggiero_eclipse_refuted",
    "C42_unavailable_objective_panics",
    "C42_kluever_weights_refuted"
   ],
   "note": "Proved for the Kluever law and, without eclipse limit, for the Ruggiero law; refuted for the Ruggiero law in eclipse (the coast command is overwritten). Objectives which cannot be evaluated panic. Laws as built by their constructors: a Kluever law with fewer weights than objectives forgets the last objectives (C42_kluever_weights_refuted)."
  },
  {
   "property": "C43",
   "status": "partial",
   "theorems": [
    "C43_plane_angles_unit",
    "C43_ra_dec_unit",
    "C43_ra_dec_roundtrip",
    "C43_ra_dec_angles",
    "C43_plane_angles_swapped",
    "C43_plane_angles_roundtrip_refuted"
   ],
   "note": "Unit vectors and right ascension/declination round trip proved; the plane angle round trip is refuted, it swaps two components."
  },
  {
   "property": "C44",
   "status": "proved",
   "theorems": [
    "C44_thrust",
    "C44_magnitude",
    "C44_forces"
   ],
   "note": "The direction has to be a unit vector within 1e-4 (the code's own tolerance), and the magnitude is stated with that tolerance. Without guidance the acceleration is that of the orbital dynamics plus the sum of the forces of every model over the mass."
  },
  {
   "property": "C45",
   "status": "partial",
   "theorems": [
    "C45_validate",
    "C45_setup",
    "C45_no_panic",
    "C45_phases",
    "C45_continuity",
    "C45_unguided_mode",
    "C45_spans",
    "C45_guided",
    "C45_started_phase_refuted",
    "C45_disabled_phase_refuted",
    "C45_valid_panics_refuted"
   ],
   "note": "Phases run in order, each to the start of the next, contiguous in time, until the termination or the requested phase (C45_phases, C45_continuity, C45_spans); validation, setup and absence of panics characterised. Missing: a phase already begun is skipped and the next one starts early, the span of a disabled phase is flown by the next one, and valid sequences that are empty or over panic (refuted with witnesses). A guided phase flies its propagator with its law and thruster, burning propellant unless disabled (C45_guided)."
  },
  {
   "property": "C46",
   "status": "partial",
   "theorems": [
    "C46_vector_length",
    "C46_vector_roundtrip",
    "C46_vector_roundtrip_but_reflectivity",
    "C46_vector_injective",
    "C46_reflectivity_after_set",
    "C46_reflectivity_after_add",
    "C46_add_deviation",
    "C46_add_zero",
    "C46_state_vector",
    "C46_vector_roundtrip_refuted",
    "C46_mode_roundtrip",
    "C46_value_after_set_value",
    "C46_value_after_set_magnitude",
    "C46_set_value_leaves_others",
    "C46_set_value_succeeds",
    "C46_set_range_direction",
    "C46_value_after_set_direction_refuted",
    "C46_value_after_negative_range_refuted",
    "C46_direction_unit",
    "C46_total_mass"
   ],
   "note": "Vector round trip is exact when the reflectivity coefficient is in [0,2] (refuted otherwise: it is clamped); reading after setting is proved for the coefficients, masses, thruster and Cartesian components, and for range/speed above the f64 epsilon; refuted for thrust direction components (renormalised) and negative ranges. The Keplerian setters of anise are oracles and are not covered."
  },
  {
   "property": "C47",
   "status": "partial",
   "theorems": [
    "C47_schedule_independent",
    "C47_reproducible",
    "C47_more_runs_append",
    "C47_resume_partial",
    "C47_resume_numbers",
    "C47_resume_refuted"
   ],
   "note": "Every interleaving, seed, number of runs and skip. Resumed runs have the states and results they would have had, but their numbers restart at 0 (refuted). The generator is an arbitrary function of its state; a propagation is a function of the sampled state."
  },
  {
   "property": "C48",
   "status": "partial",
   "theorems": [
    "C48_from_covariance",
    "C48_not_psd_refused",
    "C48_orbital_partial",
    "C48_unsupported",
    "C48_coefficients",
    "C48_reported",
    "C48_zero_mean",
    "C48_coefficients_refuted",
    "C48_mass_refuted",
    "C48_sign_refuted",
    "C48_shown_deviation_refuted",
    "C48_asymmetric_refuted"
   ],
   "note": "Orbital dispersions (at most six) have the requested first-order mean and spread; a generator made from a covariance has it. Refuted: reflectivity and drag use the mean as spread on the wrong coordinate, masses panic, B-plane dispersions are refused, the reported dispersion has the opposite sign, the shown deviations are variances, asymmetric matrices are accepted. The singular values and eigenvalues of nalgebra are assumed correct."
  },
  {
   "property": "C49",
   "status": "partial",
   "theorems": [
    "C49_eval_n_deriv_exact",
    "C49_eval_panics_iff_empty",
    "C49_sum_exact",
    "C49_sum_documented_domain_refuted",
    "C49_sum_panics_iff",
    "C49_difference_exact",
    "C49_arithmetic_total_refuted",
    "C49_scaling_exact",
    "C49_offset_exact",
    "C49_from_most_significant_value",
    "C49_zero_power_exact",
    "C49_zero_below_tolerance_exact",
    "C49_common_polynomials_exact",
    "C49_coeff_in_order_exact",
    "C49_set_then_get_coefficient_refuted",
    "C49_add_to_coefficient_refuted",
    "C49_set_coefficient_partial"
   ],
   "note": "Evaluation, derivative, scaling, offset and the coefficient accessors are exact for every size; sum and difference are exact on the sizes where they do not panic. The statement for all sizes is refuted (C49_arithmetic_total_refuted), the documented domain of the addition is the opposite of the real one, and the setters of CommonPolynomial count from the other end than the getter. Real arithmetic, no rounding."
  },
  {
   "property": "C50",
   "status": "partial",
   "theorems": [
    "C50_between_0_360_canonical",
    "C50_between_0_360_exact",
    "C50_between_0_360_f64_refuted",
    "C50_between_pm_180_half_open_refuted",
    "C50_between_pm_x_exact",
    "C50_between_pm_x_inside",
    "C50_cartesian_roundtrip",
    "C50_cartesian_roundtrip_pole_refuted",
    "C50_eigenvalues_stable_iff",
    "C50_elementary_rotations",
    "C50_elementary_rotations_compose",
    "C50_elementary_rotations_turn_coordinates",
    "C50_is_diagonal_iff",
    "C50_kronecker_exact",
    "C50_mag_order_exact",
    "C50_normalize_denormalize",
    "C50_normalize_range",
    "C50_projection_decomposition_partial",
    "C50_projection_decomposition_refuted",
    "C50_pseudo_inverse_exists_iff_full_rank",
    "C50_pseudo_inverse_least_norm",
    "C50_pseudo_inverse_least_squares",
    "C50_pseudo_inverse_one_sided",
    "C50_rotv_is_rotation",
    "C50_rss_errors_distance",
    "C50_spherical_roundtrip",
    "C50_tilde_is_cross_product",
    "C50_unitize_exact"
   ],
   "note": "Proved over the reals: wrapping, elementary and axis rotations, projections away from tiny vectors, skew matrix, normalisation, spherical coordinates, magnitude order, pseudo-inverse (one-sided, exists iff full rank, least norm, least squares). Refuted: the [0,360) bound with floating point numbers, the documented half-open interval of between_pm_x, projection + perpendicular for small vectors, spherical coordinates at the poles."
  },
  {
   "property": "C51",
   "status": "partial",
   "theorems": [
    "C51_same_conic",
    "C51_time_of_flight_partial",
    "C51_outcomes",
    "C51_finite",
    "C51_direction",
    "C51_phi_refuted",
    "C51_no_time_refuted",
    "C51_opposite_refuted",
    "C51_past_arrival"
   ],
   "note": "Gooding's velocities are on one conic (same angular momentum, energy, eccentricity vector), Newton's law joins both ends in the converged time within 0.1 ms, the outcomes are a solution or three errors after at most 1001 passes, velocities are finite unless positions are opposite or the time is below the tolerance, and the direction is as asked. Partial: the arc is proved for passes whose phi is not replaced because of a negative y (never the long way) and not a tiny non-zero phi. Refuted: phi_rad is not the turn angle; a zero time of flight and opposite positions give non-finite velocities as a solution."
  },
  {
   "property": "C52",
   "status": "partial",
   "theorems": [
    "C52_bounds",
    "C52_solution",
    "C52_checks",
    "C52_reproduces",
    "C52_apply_partial",
    "C52_step_partial",
    "C52_maneuver_partial",
    "C52_mixed_no_maneuver",
    "C52_duration_lost",
    "C52_dates",
    "C52_total_bounds_refuted",
    "C52_step_refuted",
    "C52_scaled_apply_refuted",
    "C52_level_refuted",
    "C52_duration_refuted",
    "C52_angle_rate_refuted",
    "C52_mixed_refuted",
    "C52_local_frame_refuted"
   ],
   "note": "Bounds, checks, errors within tolerance at the state achieved, number of iterations: proved. Reproduction of the achieved state proved for position and velocity corrections without a local frame; the maneuver of the solution proved to be the one flown when only angles and their second derivatives vary; the dates of the maneuver when one date varies (correcting the start also moves the end). Refuted: bounds on the total, step with a positive minimum, local frames, thrust level, duration, angle rates, mixed variables, check of scaled objectives."
  },
  {
   "property": "C53",
   "status": "partial",
   "theorems": [
    "C53_right_composition",
    "C53_first_order",
    "C53_position_block",
    "C53_order_refuted",
    "C53_left_composition_refuted",
    "C53_same_motion"
   ],
   "note": "A step multiplies the transition matrix on the right by the matrix it makes from the identity, which for a constant gradient A is I + hA whatever the method. Both halves of the claim are therefore refuted: products are in the wrong order and the accuracy is first order. The motion itself is the same with and without a transition matrix, for models whose derivatives agree with their values."
  },
  {
   "property": "C54",
   "status": "partial",
   "theorems": [
    "C54_found",
    "C54_root",
    "C54_not_found",
    "C54_backward_never_succeeds",
    "C54_first_event",
    "C54_last_step_refuted",
    "C54_exact_zero_refuted",
    "C54_event_frame_refuted",
    "C54_backward_refuted",
    "C54_integration_frame_refuted"
   ],
   "note": "For forward searches: a successful search stopped after exactly n sign changes along the emitted states, counted once each, and (with a sound root finder, no integration frame) the returned state is near a zero of the event; a failing search saw fewer than n. Refuted: a sign change in the last shortened step or through an exact zero of a scalar is not counted, the root is searched with the event in the frame of the states rather than the event frame, a backward search never succeeds, and with an integration frame an absent event is not reported as such."
  },
  {
   "property": "C55",
   "status": "proved",
   "theorems": [
    "C55_local_error"
   ],
   "note": ""
  },
  {
   "property": "C56",
   "status": "partial",
   "theorems": [
    "C56_interpolated_state",
    "C56_mass_partial",
    "C56_mass_refuted"
   ],
   "note": "Epoch, frame, interpolated components and absence of panic proved. The mass is off by what was burnt since the first sample: C56_mass_partial gives the exact offset, C56_mass_refuted a case outside of the recorded masses."
  },
  {
   "property": "C57",
   "status": "proved",
   "theorems": [
    "C57_rebuild",
    "C57_rebuild_outside",
    "C57_resample",
    "C57_to_frame"
   ],
   "note": ""
  },
  {
   "property": "C58",
   "status": "partial",
   "theorems": [
    "C58_reference_partial",
    "C58_ratio_refuted",
    "C58_postfit_refuted"
   ],
   "note": "holds for the variant that updates the reference; refuted for the variant that tracks a deviation: ratio against the reference rather than the prediction, postfit without the gain"
  },
  {
   "property": "C59",
   "status": "partial",
   "theorems": [
    "C59_present",
    "C59_absent_refuted",
    "C59_filter_refuted"
   ],
   "note": "Proved that present observables get their row. Refuted: rows of absent observables (and of positions beyond the observables of an incomplete group) are rows of the identity, so the filter treats the absent value as a measurement of a position component; C59_filter_refuted computes the resulting state and variance change."
  },
  {
   "property": "C60",
   "status": "partial",
   "theorems": [
    "C60_range",
    "C60_doppler",
    "C60_measured_refuted",
    "C60_elevation_partial",
    "C60_elevation_refuted",
    "C60_azimuth_refuted",
    "C60_interlink_partial",
    "C60_interlink_doppler_refuted"
   ],
   "note": "Range and Doppler rows are the gradient when the measured value is the computed one, with the exact error otherwise. Refuted for a measured value that differs, for azimuth (sign and unit) and elevation (degrees), and for a link measuring only Doppler. Geometry of anise (light time, rotation to the local frame) is not modelled."
  },
  {
   "property": "C61",
   "status": "partial",
   "theorems": [
    "C61_rate_partial",
    "C61_rate_refuted"
   ],
   "note": "True for a transmitter at rest or moving across the line of sight; refuted for two spacecraft in formation, since the velocity of the transmitter is not subtracted."
  },
  {
   "property": "C62",
   "status": "partial",
   "theorems": [
    "C62_two_way",
    "C62_azimuth_refuted",
    "C62_noise",
    "C62_no_bias",
    "C62_bias_refuted",
    "C62_bias_two_way_refuted",
    "C62_variance",
    "C62_variance_refuted",
    "C62_assembled"
   ],
   "note": "Averages lie between both ends and one-way noise has the variance the filter is told. Refuted: azimuths across north; the bias is subtracted from the computed observable while simulation adds it, leaving a residual of twice the bias at the true state; averaged noise has half of the variance the filter is told.; the bias vector and noise matrix are assembled type by type"
  },
  {
   "property": "C63",
   "status": "partial",
   "theorems": [
    "C63_add_remove",
    "C63_builds",
    "C63_bias_refuted",
    "C63_unconfigured_refuted",
    "C63_timestamp_refuted"
   ],
   "note": "Consistency proved for all sequences of builder calls and after any sampling. Refuted: with_msr_bias_constant changes a copy, so has no effect, and panics when the observable is not configured; the state of the time tag noise is not kept."
  },
  {
   "property": "C64",
   "status": "partial",
   "theorems": [
    "C64_kluever_steers",
    "C64_kluever_plane",
    "C64_kluever_unit",
    "C64_kluever_idle_thrusts",
    "C64_ruggiero_steers",
    "C64_ruggiero_unit",
    "C64_ruggiero_periapsis_partial",
    "C64_equinoctial_partial",
    "C64_equinoctial_h_refuted",
    "C64_equinoctial_k_refuted",
    "C64_periapsis_refuted"
   ],
   "note": "Proved for semi-major axis, eccentricity, inclination and node as far as each law supports them (see the [gradient] cases), for the equinoctial elements P and Q of the plane (Kluever), and for the argument of periapsis when the Ruggiero law thrusts in the plane of the orbit. For the equinoctial elements h and k of the Kluever law: they move towards their targets exactly when a transverse thrust changes them more than a radial one of the same size. Refuted: h and k in general, and the argument of periapsis on a polar orbit (the angle from the plane is multiplied by the cosine of the inclination, which turns the periapsis the wrong way)."
  },
  {
   "property": "C65",
   "status": "proved",
   "theorems": [
    "C65_efficiency_range"
   ],
   "note": ""
  },
  {
   "property": "C66",
   "status": "partial",
   "theorems": [
    "C66_set_direction",
    "C66_set_direction_succeeds",
    "C66_set_direction_keeps_rates",
    "C66_set_unit_rate",
    "C66_rate_readback_refuted",
    "C66_direction_at_start",
    "C66_fixed_vector_not_normalized_refuted",
    "C66_antichronological"
   ],
   "note": "Direction and unit rates proved; refuted for rates which are not unit vectors and for the direction of a fixed vector which is not normalized. Rates outside of the principal range of the angles are not covered."
  },
  {
   "property": "C67",
   "status": "partial",
   "theorems": [
    "C67_replay_in_force",
    "C67_replay_looks_ahead",
    "C67_replay_outside",
    "C67_replay_mode",
    "C67_recorded_burn_lags_refuted"
   ],
   "note": "The lookup commands what is in force (with its look-ahead rule) and nothing outside of the recorded span; but the recorded direction lags the mode by a step, so a replayed burn thrusts a step late."
  },
  {
   "property": "C68",
   "status": "partial",
   "theorems": [
    "C68_effect",
    "C68_round_trip",
    "C68_local_frame_unused",
    "C68_local_frame_refuted",
    "C68_negative_mass_refuted"
   ],
   "note": "Field by field effect and round trip proved. Missing: the local frame of the impulse is ignored, and a staging larger than the spacecraft leaves negative masses (refuted with witnesses)."
  },
  {
   "property": "C69",
   "status": "partial",
   "theorems": [
    "C69_moment_energy",
    "C69_same_conic_partial",
    "C69_same_conic_refuted",
    "C69_same_position_refuted"
   ],
   "note": "Angular momentum and energy agree for every plane; the eccentricity vectors agree when the cross product of the positions does not point to negative z. Refuted otherwise: the flipped normal gives velocities of no conic, and no time of flight joins the ends; equal positions panic. The time of flight is C95."
  },
  {
   "property": "C70",
   "status": "partial",
   "theorems": [
    "C70_one_value_per_run",
    "C70_failures_left_out",
    "C70_dispersion_values",
    "C70_every_value",
    "C70_every_value_refuted"
   ],
   "note": "First, last and dispersion reports proved for all runs. The report of every value counts a failed run once whatever the number of steps (refuted). What that report holds run by run is proved (C70_every_value)."
  },
  {
   "property": "C71",
   "status": "proved",
   "theorems": [
    "C71_one_correction",
    "C71_factor_refuted"
   ],
   "note": "Numbers are reals; the pseudo-inverse is an argument that inverts the Jacobian (C50). C71_factor_refuted shows the factor must be one."
  },
  {
   "property": "C72",
   "status": "partial",
   "theorems": [
    "C72_range_rates_partial",
    "C72_one_way_refuted",
    "C72_other_station_refuted"
   ],
   "note": "Proved for every file whose records follow one two-way transmitter (any sequence of frequencies and ramps): each receive frequency after the first transmit frequency gives the range rate of the link, no frequency is left, other observables are those of the file. Refuted in full: the path is not used, so a one-way link gives half of the range rate; the ramp rate of one station is applied to the next station."
  },
  {
   "property": "C73",
   "status": "partial",
   "theorems": [
    "C73_sum",
    "C73_model_order",
    "C73_energy",
    "C73_angular_momentum",
    "C73_gradient",
    "C73_point_masses",
    "C73_disturbing_function",
    "C73_point_mass_gradient_excess",
    "C73_center_only",
    "C73_point_mass_gradient_refuted",
    "C73_duplicate_refuted"
   ],
   "note": "Proved: the acceleration is Newton's plus the sum of those of the models, in any order; energy and angular momentum are conserved along every solution of the two-body equations; point masses give the gradient of the disturbing function; the 6x6 matrix is the Jacobian whenever the matrix of each model is. Missing: the matrix of the point masses is not the Jacobian of their acceleration (refuted, and the exact excess is proved); a body listed twice pulls twice (refuted)."
  },
  {
   "property": "C74",
   "status": "proved",
   "theorems": [
    "C74_gradient_of_potential",
    "C74_acceleration",
    "C74_spherical",
    "C74_gradient",
    "C74_dynamics"
   ],
   "note": "For all degrees and orders, over the reals. The change of frame and its rotation are the almanac's (the hypothesis changes_frame: a displacement of the orbit turns with the rotation); the degree has to be smaller than the number of rows of the coefficients, otherwise cs_nm panics."
  },
  {
   "property": "C75",
   "status": "partial",
   "theorems": [
    "C75_shadr",
    "C75_cof",
    "C75_fits",
    "C75_acceleration",
    "C75_config_never_cof",
    "C75_j2",
    "C75_j2_refuted",
    "C75_order_refuted",
    "C75_cof_exponent_refuted",
    "C75_config_refuted",
    "C75_order_above_degree_refuted",
    "C75_unsorted_refuted"
   ],
   "note": "Proved from the text of the file: SHADR and COF files sorted by degree give the potential of their coefficients up to the requested degree and order; loaded fields are never read out of bounds. Missing: from_config never selects the COF reader for a named file (proved, and refuted on a case); from_j2 takes its value as a normalised C_20 (exact potential proved, refuted); negative S_nm with a positive exponent, orders above the requested degree (panic), unsorted files, and the reported order (refuted)."
  },
  {
   "property": "C76",
   "status": "partial",
   "theorems": [
    "C76_shadow",
    "C76_lit",
    "C76_force",
    "C76_umbra",
    "C76_gradient",
    "C76_dynamics",
    "C76_built",
    "C76_default_built",
    "C76_orientation_refuted",
    "C76_penumbra_refuted",
    "C76_cr_refuted",
    "C76_two_bodies_refuted",
    "C76_dropped_refuted"
   ],
   "note": "Proved: the shadow is the deepest of those of the bodies; never less light than what no body hides, exactly that for one body; direction and inverse square law in the axes of the light source; no force in an umbra; gradient and coefficient column when the axes agree, outside of the penumbra and with a coefficient that is not zero. Refuted: axes that differ (the force stays in the axes of the light source), penumbra partials, null coefficient (not a number), two bodies that hide different parts, bodies whose data are not loaded are left out."
  },
  {
   "property": "C77",
   "status": "partial",
   "theorems": [
    "C77_constant",
    "C77_velocity_ignored",
    "C77_no_partials",
    "C77_exponential_density",
    "C77_units_refuted",
    "C77_std_density",
    "C77_std_density_refuted",
    "C77_orientation_refuted",
    "C77_exponential_refuted",
    "C77_inertial_refuted",
    "C77_std_built_refuted"
   ],
   "note": "Proved: with a constant density and the axes of the orbit, the force opposes the airspeed and takes the expected power; the exponential density is positive and decreasing. Refuted: constant density in turned axes (the force can push forward); exponential and standard atmospheres do not depend on the velocity of the spacecraft, push retrograde spacecraft forward and vanish in a frame that does not turn; meters read as kilometers; the standard density increases below 1000 km; no drag model has partials."
  },
  {
   "property": "C78",
   "status": "proved",
   "theorems": [
    "C78_prediction",
    "C78_error",
    "C78_exact",
    "C78_blind"
   ],
   "note": "over any real closed field; the noise contribution is an oracle as in C26; exactness is for the deviation tracking variant, the other one has no deviation"
  },
  {
   "property": "C79",
   "status": "partial",
   "theorems": [
    "C79_vector",
    "C79_jacobian",
    "C79_unique",
    "C79_velocity",
    "C79_round_trip_partial",
    "C79_round_trip_refuted",
    "C79_great_circle",
    "C79_great_circle_metric"
   ],
   "note": "The Jacobian is the derivative of the only map to geodetic positions and velocities; SEZ velocities given that anise restores the coordinates of an orbit it made from them; the round trip holds away from the poles and above the centers of curvature, and is refuted at a pole, where the velocity to the east is lost; great circle distances are a metric."
  },
  {
   "property": "C80",
   "status": "partial",
   "theorems": [
    "C80_line",
    "C80_motion",
    "C80_weights",
    "C80_gradient",
    "C80_stm_refuted",
    "C80_range_partial",
    "C80_range_refuted",
    "C80_rates_unseen",
    "C80_doppler_refuted",
    "C80_tracker_refuted",
    "C80_instantaneous",
    "C80_averaged",
    "C80_present",
    "C80_absent_refuted"
   ],
   "note": "Motion along the rates in any mode, for exactly the elapsed time with fixed steps; gradient. Refuted: the state transition matrix never changes in a propagation; a transmitter held in another frame is not transformed, so the row of the range is wrong; the measured range rate does not depend on the rates of the asset though its row does; every measurement carries the name GroundAsset. The row of the range is the gradient for a transmitter in the frame of the asset. Adapted steps: the time along the rates is not tied to the epoch, which is truncated to nanoseconds."
  },
  {
   "property": "C81",
   "status": "partial",
   "theorems": [
    "C81_exists",
    "C81_plane",
    "C81_asymptote_unique",
    "C81_angle",
    "C81_jacobian",
    "C81_jacobian2",
    "C81_ltof_zero",
    "C81_ltof_refuted"
   ],
   "note": "Existence, axes, B vector, polar coordinates and the rows of B.R and B.T hold whenever S is not along the third axis, where the code divides by zero. Refuted: the linearized time of flight is zero, with zero partials, for every orbit, as it is the product of B and S."
  },
  {
   "property": "C82",
   "status": "partial",
   "theorems": [
    "C82_achieved",
    "C82_step",
    "C82_ltof_never",
    "C82_ltof_flat",
    "C82_closer",
    "C82_ineffective",
    "C82_bt_br",
    "C82_default_tolerance_refuted",
    "C82_ltof_refuted"
   ],
   "note": "What is returned meets the target; a correction is the least norm solution and panics exactly for parallel gradients. Refuted: a time of flight beyond its tolerance is never achieved by any orbit, the default tolerance is six hours instead of the documented second, and with a time of flight the maneuver has no third component. The orbits tried before the returned one are strictly closer and closer, at most ten of them."
  },
  {
   "property": "C83",
   "status": "proved",
   "theorems": [
    "C83_acceleration",
    "C83_gradient",
    "C83_earth_moon"
   ],
   "note": "By the addition theorem, from the coefficients of the code to the potential of Love; a perturber within 1e-12 of the pole but not on it is given the longitude zero by the code and is excluded in the quantifier."
  },
  {
   "property": "C84",
   "status": "partial",
   "theorems": [
    "C84_solution",
    "C84_delta",
    "C84_jacobian",
    "C84_one_correction",
    "C84_step",
    "C84_objective_frame_refuted",
    "C84_correction_frame_refuted",
    "C84_vnc_refuted"
   ],
   "note": "Proved for every propagation, partials and solver: what a solution guarantees, the bound of each correction, convergence in one correction for affine objectives, and that the Jacobian is the derivative when no frame of the objectives is given. Refuted: with a rotated frame of the objectives the partials and the transition matrix are in different axes, so that a solvable problem is declared ineffective; the correction frame is ignored. The frame of a VNC maneuver is ignored (C84_vnc_refuted)."
  },
  {
   "property": "C85",
   "status": "partial",
   "theorems": [
    "C85_solution",
    "C85_converged",
    "C85_segment",
    "C85_jacobian_partial",
    "C85_reaches",
    "C85_jacobian_refuted",
    "C85_last_block_refuted",
    "C85_energy",
    "C85_fuel_refuted",
    "C85_fuel_is_energy",
    "C85_no_correction_refuted",
    "C85_two_nodes_refuted",
    "C85_destination_refuted",
    "C85_four_objectives_refuted"
   ],
   "note": "Proved: the chain of maneuvers, what the nodes keep, that each maneuver reaches its node, the energy, and the Jacobian up to the correction that leaves the node after the displaced one. Refuted: the block after that has the wrong sign and is missing for the last correction; the fuel is the root of the energy and not the sum of the maneuvers; a trajectory that needs no maneuver ends as too many iterations; two nodes never give a solution; with four objectives per node the steps are applied to the wrong nodes, and move the destination. An error names the node towards which the correction failed or the node that was moved (C85_segment)."
  },
  {
   "property": "C86",
   "status": "partial",
   "theorems": [
    "C86_equidistant",
    "C86_equidistant_refuses",
    "C86_last_epoch_partial",
    "C86_altitude",
    "C86_last_epoch_refuted",
    "C86_destination_frame_refuted",
    "C86_linear_refuted"
   ],
   "note": "Proved: the positions, epochs and refusals of the straight line, the place of each node of the altitude heuristic and the altitude of the last one. Refuted: the last epoch is that of the destination only if the durations divide evenly (bounded otherwise), the frame of the destination is not looked at, and the altitudes are not linear."
  },
  {
   "property": "C87",
   "status": "partial",
   "theorems": [
    "C87_follows",
    "C87_advances",
    "C87_idle",
    "C87_thrust",
    "C87_missed_refuted",
    "C87_backward_refuted",
    "C87_frame_refuted"
   ],
   "note": "Proved: idle outside the maneuvers, the thrust of the maneuver in progress when at most one maneuver ends between two states, and how the schedule advances. Refuted: a maneuver in progress is missed when two others ended since the previous state; going back in time maneuvers that are over are not flown; the frame of the maneuver is ignored."
  },
  {
   "property": "C88",
   "status": "partial",
   "theorems": [
    "C88_refuses",
    "C88_covariance",
    "C88_local_partial",
    "C88_exported",
    "C88_sigma",
    "C88_elements",
    "C88_scaled",
    "C88_randomized",
    "C88_local_refuted",
    "C88_exported_refuted",
    "C88_dispersed",
    "C88_dispersed_refuted"
   ],
   "note": "Proved: the refusals, that the covariance is one and its parts, the deviations and covariance of the elements, scaling, that a randomised estimate never panics, and the estimate from dispersions as coded. The covariance in a local frame is proved only for equal deviations per axis or for the inertial frame. Refuted: to_estimate applies the transpose of the rotation, so errors along a local axis come out along another one; the export in the RIC frame has the transposed rotation too, which hides the former; an estimate from dispersions is at the mirror image of the dispersed state."
  },
  {
   "property": "C89",
   "status": "partial",
   "theorems": [
    "C89_process",
    "C89_prediction",
    "C89_failures"
   ],
   "note": "Proved for any propagation whose matrix goes with the motion (the relation [flow]); that this matrix is the exact flow is refuted for spacecraft by C53. The process of Odp_Model is given the filter of Kf_Model; real arithmetic."
  },
  {
   "property": "C90",
   "status": "partial",
   "theorems": [
    "C90_writes",
    "C90_reads",
    "C90_round_trip",
    "C90_unreadable",
    "C90_selected",
    "C90_missing_refuted",
    "C90_rejected_refuted",
    "C90_frequency_refuted",
    "C90_last_refuted"
   ],
   "note": "Proved: every non-empty arc is written; a file with an observable that is read (range, Doppler, azimuth, elevation) comes back with the same epochs and trackers in order and the observed values, and is identical when all measurements carry the same readable observables and none is rejected; a file without such observables is refused; exactly which measurements are written for given epochs. Refuted of the code: a missing observable comes back with the content of a null slot, a rejected measurement comes back as accepted, frequencies (and X, Y, Z) are written but not read, moduli are not read, and giving only a start epoch or a step loses the last measurement. Trusted: arrow and parquet tables, hifitime's printing and parsing of epochs."
  },
  {
   "property": "C91",
   "status": "partial",
   "theorems": [
    "C91_reads",
    "C91_round_trip",
    "C91_direction",
    "C91_coefficients_refuted",
    "C91_thruster_refuted",
    "C91_direction_refuted"
   ],
   "note": "Proved: every state that is written comes back in order with its epoch, position, velocity, dry and propellant masses, guidance mode and thruster, in the frame of the trajectory, and exactly as it was when it has no thrust direction and default extra mass, areas and coefficients. Refuted of the code: Cr and Cd are written but not read back; a state without a thruster comes back with a zero one if another state has one; a thrust direction is normalised again after each component, so that a unit direction with an X component is kept only if it is along X. Trusted: arrow and parquet tables, hifitime's printing and parsing of epochs, serde_dhall for frames, anise's element names, assumed different. In the code a direction without X component becomes NaN; the reals do not show this."
  },
  {
   "property": "C92",
   "status": "partial",
   "theorems": [
    "C92_reads",
    "C92_writes",
    "C92_selection_refuted",
    "C92_unreadable_refuted",
    "C92_whitened_refuted",
    "C92_gains_refuted",
    "C92_frequency_refuted",
    "C92_spacecraft_refuted",
    "C92_thruster_refuted"
   ],
   "note": "Full statement false of the code: see the refutations (whitened residuals, gains with other sizes, frequencies, areas and masses, thrusters, epochs). What survives is proved for all solutions and hash map orders; writing succeeds exactly when all the estimates have what the first has."
  },
  {
   "property": "C93",
   "status": "partial",
   "theorems": [
    "C93_direction",
    "C93_sphere",
    "C93_uniform",
    "C93_refused",
    "C93_pointing",
    "C93_pointing_refuted",
    "C93_no_error",
    "C93_aligned",
    "C93_reversed_refuted",
    "C93_cancelled_refuted",
    "C93_execution",
    "C93_execution_aligned",
    "C93_execution_refuted"
   ],
   "note": "The directions are proved (unit, all of the sphere, uniform height). The pointing error is refuted: the returned delta-v is always on the line of the given one; what is returned is characterised for all inputs."
  },
  {
   "property": "C94",
   "status": "partial",
   "theorems": [
    "C94_size",
    "C94_nees",
    "C94_bounds",
    "C94_refused",
    "C94_unknown_truth",
    "C94_verdict",
    "C94_power",
    "C94_certain_refuted",
    "C94_clipped_refuted"
   ],
   "note": "The sum is proved for well conditioned covariances and bounded for the others; false in general: directions with little variance do not count, and estimates without covariance are declared under-confident."
  },
  {
   "property": "C95",
   "status": "partial",
   "theorems": [
    "C95_time_of_flight_partial",
    "C95_derivatives",
    "C69_same_conic_refuted",
    "C95_search"
   ],
   "note": "For a series summed exactly (hyp2f1b is the sum of its terms wherever they converge) the arc of the returned velocities lasts the requested time plus the residual of the time equation at the accepted x; the closed forms of the series on ellipse, parabola and hyperbola are derived from its terms. The derivatives to the third are those of the equation. Missing: a bound on the residual of the accepted x (the search stops on the step), planes with a normal towards negative z (no time joins the ends there, C69_same_conic_refuted), rounding."
  },
  {
   "property": "C96",
   "status": "partial",
   "theorems": [
    "C96_input",
    "C96_orbits",
    "C96_same_orbit",
    "C96_asymptote",
    "C96_opposite",
    "C96_outgoing_refuted"
   ],
   "note": "Input, orbits, conic (Gooding), angles and energy proved. False: the vectors returned are those of the body with respect to the spacecraft, opposite to the angles returned (C96_opposite, C96_outgoing_refuted)."
  },
  {
   "property": "C97",
   "status": "partial",
   "theorems": [
    "C97_built",
    "C97_setters",
    "C97_setting",
    "C97_within",
    "C97_first_step",
    "C97_smallest_wins",
    "C97_greatest_refuted",
    "C97_initial_refuted",
    "C97_fixed",
    "C97_tried_first",
    "C97_attempts"
   ],
   "note": "Constructors, setters and all steps are proved when no setter contradicts another option. False otherwise: a greatest step set below the smallest is exceeded (C97_greatest_refuted); with_max_step does not start with a step longer than a minute (C97_initial_refuted)."
  },
  {
   "property": "C98",
   "status": "partial",
   "theorems": [
    "C98_added",
    "C98_square",
    "C98_square_refuted",
    "C98_set_refuted"
   ],
   "note": "The amount added is proved for all gaps; it is the error times the duration, the square of the error only when the error equals the number of seconds (C98_square, C98_square_refuted): the constructor divides the error, not its square, and once. A decaying noise set on an existing filter stops the program (C98_set_refuted)."
  },
  {
   "property": "C99",
   "status": "partial",
   "theorems": [
    "C99_measurement",
    "C99_same_content",
    "C99_reflexive",
    "C99_arcs",
    "C99_symmetric_refuted",
    "C99_transitive_refuted",
    "C99_rejected_refuted"
   ],
   "note": "What equality means is proved exactly; with as many observables on both sides it is what is expected. It is not symmetric, not transitive and ignores rejections and moduli (refuted). NaN is not modelled."
  },
  {
   "property": "C100",
   "status": "proved",
   "theorems": [
    "C100_levels",
    "C100_range",
    "C100_doppler",
    "C100_bands",
    "C100_ordered"
   ],
   "note": "Over the reals."
  },
  {
   "property": "C101",
   "status": "partial",
   "theorems": [
    "C101_built",
    "C101_coordinates_partial",
    "C101_noise",
    "C101_rows",
    "C101_order_refuted",
    "C101_residual_refuted",
    "C101_fourth_refuted",
    "C101_bias_refuted"
   ],
   "note": "Builders, covariances, noises and rows for every device; coordinates for devices whose observables are the first of X, Y, Z in this order (C101_coordinates_partial), false for other orders (C101_order_refuted, C101_residual_refuted). A fourth observable panics; a constant bias enters simulated measurements twice (C101_bias_refuted). location() (unimplemented!) and serialization are not modelled."
  },
  {
   "property": "C102",
   "status": "partial",
   "theorems": [
    "C102_writes_partial",
    "C102_observables_refuted",
    "C102_selection_refuted"
   ],
   "note": "Whole exports of solutions with exactly two observables (C102_writes_partial); with another number nothing is written (C102_observables_refuted), nor when the dates leave an estimate out (C102_selection_refuted). Metadata, units and the file itself are not modelled."
  },
  {
   "property": "C103",
   "status": "partial",
   "theorems": [
    "C103_rows_partial",
    "C103_median",
    "C103_among_differences",
    "C103_unsmoothed",
    "C103_drift",
    "C103_spike_refuted",
    "C103_in_place_refuted",
    "C103_drift_refuted",
    "C103_dates_refuted",
    "C103_disjoint_refuted"
   ],
   "note": "Proved: the dates are those common to both trajectories, the fields are differences at these dates, and what is written for the RIC differences is, row by row, the median of the numbers already written for the two rows before and the raw differences of the row and the two after; hence always the difference of some row, and the exact differences for at most five rows. Refuted parts: with six rows or more an isolated difference is erased; trajectories that start together and drift apart are written as apart on the first row (the first row has the difference of the second, the second that of the third, the last that of the one before, all others theirs: C103_drift); the filter is not a median of the differences as it works in place; start and end dates asked for are ignored; trajectories without a common date give an empty file."
  },
  {
   "property": "C104",
   "status": "partial",
   "theorems": [
    "C104_ephemeris",
    "C104_round_trip_partial",
    "C104_sampled_partial",
    "C104_outside_refuted",
    "C104_empty_refuted",
    "C104_masses_refuted",
    "C104_start_refuted",
    "C104_bsp",
    "C104_bsp_missing",
    "C104_bsp_refuted",
    "C104_solution"
   ],
   "note": "Whole trajectories: one record per epoch, that of the last state there; chronological ones come back with the same orbits and otherwise the template, hence whole only when nothing but the orbit changes (masses refuted). Parts: every step, one minute by default, so that giving only a start loses the states (refuted), and a part outside is empty without error (refuted); the sampling theorem takes the success of the interpolation as a hypothesis. SPK: proved, but the domain is required even when both epochs are given and an end before the start makes a trajectory without states (refuted). Solutions: proved. The text of OEM files is anise's."
  },
  {
   "property": "C105",
   "status": "partial",
   "theorems": [
    "C105_lines_partial",
    "C105_whole",
    "C105_failed",
    "C105_failed_ignored",
    "C105_end_refuted",
    "C105_step_refuted"
   ],
   "note": "Proved of the states written, their dates, indexes, cells and nulls, and the file is never refused. Refuted: the default start and end are those of the first successful run, so that longer runs are cut; giving only a bound writes a line every minute instead of every state. The success of the interpolation is a hypothesis when there are bounds or a step."
  },
  {
   "property": "C106",
   "status": "partial",
   "theorems": [
    "C106_state",
    "C106_local_frame",
    "C106_direction",
    "C106_dates",
    "C106_mixed_refuted",
    "C106_rate_axis_refuted",
    "C106_level_refuted",
    "C106_duration_refuted",
    "C106_small_refuted"
   ],
   "note": "Proved of components of the state (with and without a correction frame), of the direction of thrust and of the dates. Refuted: with a burn the entries of components of the state are zero; those of rates and accelerations of the thrust are along another axis than the one they are named after; that of the level of thrust has the opposite sign; that of the duration compares with a maneuver lasting the perturbation; perturbations of dates of at most a millisecond give zero."
  },
  {
   "property": "C107",
   "status": "proved",
   "theorems": [
    "C107_trajectories",
    "C107_errors"
   ],
   "note": "The propagations with and without the transition matrix are assumed to reach the same orbits; a trajectory is shown by its first and last orbits."
  },
  {
   "property": "C108",
   "status": "partial",
   "theorems": [
    "C108_round_trip",
    "C108_read",
    "C108_error_refuted"
   ],
   "note": "The last clause is refuted: a text that is not an epoch makes the program panic although the function returns a Result."
  },
  {
   "property": "C109",
   "status": "partial",
   "theorems": [
    "C109_randomized",
    "C109_refuses",
    "C109_panics",
    "C109_mass_refuted"
   ],
   "note": "The decompositions of nalgebra are assumed to be found and right. The last clause is refuted: with an uncertain mass some draws have a negative propellant mass."
  },
  {
   "property": "C110",
   "status": "partial",
   "theorems": [
    "C110_track_partial",
    "C110_refused",
    "C110_end_refuted"
   ],
   "note": "The rows and columns are those of the minutes from the first to the last state, interpolated in the body fixed frame, given that the transformation and the interpolation succeed and keep the dates (external crates); the refusals are unconditional. Refuted: that the end of the trajectory is in the file."
  },
  {
   "property": "C111",
   "status": "partial",
   "theorems": [
    "C111_share_partial",
    "C111_eccentricity_below",
    "C111_eccentricity_refuted"
   ],
   "note": "Proved for the semi-major axis, the inclination and the node of inclined orbits. For the eccentricity the formula is never above the share and is refuted to be equal to it. The argument of periapsis has the constant efficiency 1 (documented as not implemented) and is not claimed."
  },
  {
   "property": "C112",
   "status": "proved",
   "theorems": [
    "C112_blend",
    "C112_idle",
    "C112_thrusts"
   ],
   "note": "An objective already met at the start is weighted by its tolerance instead (stated). Positive tolerances; the matrix to the inertial frame is a rotation."
  },
  {
   "property": "C113",
   "status": "proved",
   "theorems": [
    "C113_sum"
   ],
   "note": "Semi-major axis, eccentricity, inclination and node; the equinoctial elements are in C64."
  },
  {
   "property": "C114",
   "status": "partial",
   "theorems": [
    "C114_measures",
    "C114_sites_partial",
    "C114_madrid_refuted"
   ],
   "note": "Proved: the measurements and the variances, the mask, and the location of Canberra and Goldstone. Refuted: Madrid, whose longitude has the wrong sign (4.25 degrees east instead of west). The locations of the antennas are those published by the DSN (810-005, module 301), written down in the specification; they are not in the repository, and were written from memory without consulting the document."
  }
 ]
}
