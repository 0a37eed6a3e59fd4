# Formal model of nyx-core: design

The code under study is `/repo` (nyx, crate `nyx-core`), read as text only. The model and the
proofs are Rocq (Coq 8.16.1) files in `rocq/theories`, in the order of `rocq/_CoqProject`.
Paths below are relative to `nyx-core/src`.

## Method

* Each area has up to four kinds of files: `X_Model.v` (total, computable definitions that follow
  the Rust functions one by one, each with a comment citing file and lines and saying what was
  simplified), `X_Spec.v` where a separate specification vocabulary is needed, `X_Proofs.v`
  (lemmas) and `X_Props.v` (the theorems named in `MANIFEST.json`, concrete instances showing
  that their hypotheses can be met, `Print Assumptions`). Other suffixes (`Step`, `Loop`, `More`,
  `Cases`, `Arc`, `Newton`, ...) split long proofs.
* Statements use plain vocabulary (sortedness, permutation, membership, epochs, matrix equations,
  derivatives), not the helper functions of the model.
* Theorems are named after their property: `C21_round_trip_partial` belongs to C21. When the English
  property is false of the code as written, a theorem `..._refuted` gives a witness; what does hold is
  proved next to it, named `..._partial` when it is a weakening of the property.
* Theorems were tested against wrong programs: `seeded/LOG.jsonl` has one line per seeded bug.

## Modelling conventions

| Code | Model |
|---|---|
| `hifitime::Epoch`, `Duration` | `Z` (nanoseconds). Saturation at +-32768 centuries is modelled in `Der_*` only. Time scales only in `Tdm_*` and `Der_*`. Conversion to seconds is a function with its rounding bounded by a hypothesis (`Prop_*`) or exact. |
| `f64` in control flow and algebra | real numbers `R`, rationals `Q`, or an arbitrary real closed field (mathcomp `rcfType`). Rounding is not modelled, except in the files that say so, which use the executable binary64 of `SpecFloat` (`Util_*`). NaN is an explicit `None` where the code can produce one. |
| matrices (`nalgebra`) | mathcomp matrices of arbitrary size; lists for vectors in integrators and targeting |
| dynamics, force models, almanac, RNG, devices, root finders | arbitrary functions (section arguments: every theorem is quantified over them), with the contracts listed below |
| panics (`unwrap`, out of bounds, unreachable) | the explicit outcome `Panic` of `Base.res` |
| loops without static bound | fuel; running out of it is the explicit outcome `NoFuel`, excluded by the statements or proved impossible |
| threads and channels | arbitrary permutation of the arrival order |

## Trusted base

* The Coq 8.16.1 kernel. `vm_compute` is used in closed computations.
* The axioms of the standard library printed for each theorem (last section). No axiom is declared here.
* The libraries mathcomp (matrices) and Coquelicot (derivatives, integrals) are used through their
  proved lemmas; they add no axiom besides those listed.
* The faithfulness of the hand-written model to the Rust source (see the citations in each file).
* The external functions below, which are arguments or hand-written models.

| Area | External code and what is assumed about it |
|---|---|
| `RustStd` | `sort_by` (stable merge sort), `dedup_by`, `binary_search_by` of the Rust library are modelled as functions. `sort_unstable*` is an arbitrary function that returns a sorted permutation (`Arc_*`, `Tdm_*`). |
| `Prop_*`, `RK_*` | `Dynamics::eom`, `finally`, vectors, frames, `Duration::to_seconds` and its inverse: arguments. Contracts used where named: the dynamics keep epochs (`keeps_epoch`), conversion within `slop` (`converts`), finite `eom`. |
| `Traj_*` | anise's Hermite interpolation: argument; channel: any permutation. |
| `Sched_*` | anise's visibility (list of intervals), rounding of epochs, the tracking device: arguments. |
| `Sol_*`, `Stat_*` | statrs normal cdf and chi-square quantile: arguments. |
| `Kf_*`, `Sm_*`, `Bls_*` | nalgebra's Cholesky is modelled as an algorithm over a real closed field; `try_inverse` is `Some` inverse of an invertible matrix, `None` otherwise; the UDU decomposition of `Bls_*` is an argument. `exp` of the noise decay is an argument. |
| `Odp_*` | filter, devices, propagation: arguments, with the contract that the filter keeps the epoch of the state it is given. |
| `Sens_*` | anise's geometry (positions, azimuth, elevation, range, light time): arguments. |
| `Noise_*`, `Mc_*`, `Mvn_*` | `rand` is an arbitrary stream of draws; statements on spreads use an abstract expectation (linear, zero mean, unit variance, uncorrelated). SVD and eigenvalues are arguments with their defining equations as hypotheses. |
| `Angles`, `Util_*`, `Guid_*` | `%` and `atan2` of `f64` as functions on reals. |
| `Sc_*`, `Guid_*`, `Dyn_*`, `Targ_*` | anise's orbital elements and their setters, change of frame, eclipses, propagations: arguments. |
| `Event_*` | value of the event on a state, root finder: arguments (contract of a sound root finder where named). |
| `Seq_*` | building of a propagator, change of frame, propagation of a phase: arguments. |
| `Lambert_*` | `hyp2f1b`: argument. Division by zero and roots of negative numbers where reachable: `None`. |
| `Tdm_*` | formatting and parsing of numbers and dates: arguments, with the contract that parsing the formatted text gives the value rounded to the printed digits. Text is ASCII. |
| `Der_*` | the `der` crate's headers, integers, booleans, enumerations, sequences are modelled from X.690 and its documentation; its REAL, anise's codecs and UTF-8 validation are arguments with a round trip contract. |
| `Dual` | the crate hyperdual: first order dual numbers, modelled from its documentation and proved to propagate derivatives. |
| `Orb_*`, `Grav_*`, `Tide_*`, `Force_*` | anise's frame data (gravitational parameter, radius, a missing one is an error), positions of bodies, rotations, changes of frame, solar eclipsing: arguments. Rotations are orthogonal where named. |
| `Shg_*` | opening, unzipping and decoding of files; the parsers of numbers: arguments. |
| `Gnd_*` | anise's latitude, longitude and altitude, azimuth, elevation, range and changes of frame: arguments. |
| `Bpl_*` | anise's `OrbitGrad` (angular momentum, eccentricity vector and the like): modelled from its documentation with dual numbers. |
| `Hyp_*`, `Msh_*` | propagations, partials of the elements, changes of frame, pseudo-inverse (contract of C50), geodesy, division of durations: arguments. |
| `Dvc_*`, `Est_*` | anise's rotations from the local frames to the inertial frame and the partials of the elements: arguments. SVD and eigenvalues as in `Mvn_*`. |

Not modelled: file I/O (parquet, YAML, Dhall), Python bindings, logging, printing, progress bars,
`md/opti/convert_impulsive.rs` and `md/opti/minimize_lm.rs` (they are not in the module tree, so not compiled),
wall clock, IEEE rounding except where stated, and the parts listed as such in each file header.

## What each property models

| Id | Files | Code |
|---|---|---|
| C01 C02 C03 C05 C06 C07 | `Prop_*` | `propagators/instance.rs`, `options.rs`: loop of `propagate`, `single_step`, `derive`; invariant on the epoch, measure for termination |
| C04 | `Prop_*` | `instance.rs` step controller |
| C08 C55 | `RK_*` | `propagators/rk_methods`: tableaux as exact numbers; order conditions by computation, lifted to linear systems and, by B-series, to any smooth dynamics |
| C09 | `ErrCtl_*` | `propagators/error_ctrl.rs` |
| C10-C15 C56 C57 | `Traj_*` | `md/trajectory/{traj,traj_it,interpolatable,sc_traj}.rs` |
| C16-C20 | `Arc_*` | `od/msr/trackingdata/mod.rs`, `measurement.rs` |
| C21 C72 | `Tdm_*` | `od/msr/trackingdata/io_ccsds_tdm.rs`, on the text of the file |
| C22-C24 | `Sched_*` | `od/simulator/{scheduler,trkconfig,arc}.rs` |
| C25 | `Der_*` | the `Encode`/`Decode` implementations of `od/simulator`, `od/noise`, `od/ground_station`, `dynamics/guidance/mod.rs`, `cosmic/spacecraft.rs` |
| C26-C30 C58 | `Kf_*` | `od/kalman/*.rs`, `od/snc.rs` |
| C31 C32 | `Odp_*` | `od/process/mod.rs` |
| C33 C34 | `Sol_*` | `od/process/solution/{mod,filter_data}.rs` |
| C35 | `Sm_*` | `od/process/solution/smooth.rs` |
| C36 | `Stat_*` | `od/process/solution/stats.rs`, `od/estimate/residual.rs` |
| C37 C38 | `Bls_*` | `od/blse/{mod,solution}.rs` |
| C39 C62 C63 | `Noise_*` | `od/noise/*.rs`, `od/ground_station/*.rs` |
| C114 | `Dsn_*` | `od/ground_station/builtin.rs`; the published locations of the antennas are part of the specification, written from memory to a hundredth of a degree, and so part of the trusted base |
| C59 C60 C61 | `Sens_*` | `od/msr/{types,sensitivity}.rs`, `od/interlink/*.rs`, `od/simulator/trackdata.rs` |
| C40 C42 C43 C64-C67 C111-C113 | `Guid_*` | `dynamics/guidance/{mnvr,replay,ruggiero,kluever,mod}.rs`, `md/objective.rs` |
| C40 C41 C44 C53 | `Dyn_*`, `Prop_Inv` | `dynamics/spacecraft.rs` plugged into the propagator |
| C45 C68 | `Seq_*` | `dynamics/sequence/*.rs` |
| C46 | `Sc_*` | `cosmic/spacecraft.rs` |
| C47 C70 | `Mc_*` | `mc/montecarlo.rs`, `mc/results.rs` |
| C48 | `Mvn_*` | `mc/multivariate.rs`, `mc/dispersion.rs` |
| C49 | `Poly_*` | `polyfit/polynomial.rs` |
| C50 | `Util_*`, `Angles` | `utils.rs` |
| C51 C69 C95 C96 | `Lambert_*` | `tools/lambert/*.rs`; the sum of the series `hyp2f1b` is an oracle, which C95 assumes to be the limit of its terms |
| C52 C71 C106 | `Targ_*` | `md/opti/{target_variable,raphson_finite_diff,solution,targeter}.rs` |
| C54 | `Event_*` | `propagators/event.rs` |
| C73 | `Dual`, `Orb_*` | `dynamics/orbital.rs`: two body and point mass gravity with their partials |
| C74 | `Grav_*` | `dynamics/gravity_field.rs`: the recursions, tied to the derivatives of the potential through associated Legendre functions |
| C75 | `Shg_*` | `io/gravity.rs`, on the text of the files |
| C76 C77 | `Force_*`, `Srp_*`, `Drag_*` | `dynamics/{solarpressure,drag}.rs`, `cosmic/eclipse.rs` |
| C78 | `Kf_Error` | `od/kalman/filtering.rs`: the error of the estimate as a linear map of the errors of its inputs |
| C79 C80 | `Gnd_*` | `od/groundpnt/{mod,ground_dynamics,sensitivity,trk_device}.rs` |
| C81 C82 | `Bpl_*` | `cosmic/bplane.rs` |
| C83 | `Tide_*` | `dynamics/solid_tides.rs` |
| C84 | `Hyp_*` | `md/opti/raphson_hyperdual.rs` |
| C85 C86 C107 C108 | `Msh_*`, `Mst_*` | `md/opti/multipleshooting/*.rs` |
| C87 | `Dvc_*` | `dynamics/deltavctrl.rs` |
| C88 C109 | `Est_*`, `Esr_*` | `od/estimate/{sc_uncertainty,kfestimate}.rs`, RIC covariance of `od/process/solution/export.rs` |
| C89 | `Odk_*` | `od/process/mod.rs` with the filter of `od/kalman` |
| C90 | `Pq_Model`, `Apq_*` | `od/msr/trackingdata/io_parquet.rs`, `od/msr/types.rs` (`to_field`); arrow and parquet tables are lists of named columns; the printing and parsing of epochs are oracles, and what a null slot contains is a parameter |
| C91 | `Tpq_*` | `md/trajectory/traj.rs` (`to_parquet`), `md/trajectory/sc_traj.rs` (`from_parquet`), `md/trajectory/interpolatable.rs` (`export_params`), `md/param.rs` (`Display`, `to_field`); epochs, frames and element names as text are oracles; the states to write are given |
| C92 | `Spq_*` | `od/process/solution/export.rs` (`to_parquet`) and `import.rs` (`from_parquet`), `od/estimate/residual.rs` (`msr_id` lookups), `od/msr/types.rs` (`from_str`); a column name is represented by what its format string prints; the deviations of the elements and of the RIC frame, the text of the epochs, the NaN, what a null slot holds and the order of a `HashMap` are oracles; the text of the areas in the metadata is exact; arrow, parquet, devices and logs are not modelled |
| C93 | `Dve_*` | `mc/helpers.rs` (`unit_vector_from_seed`, `dv_pointing_error`, `dv_execution_error`); the draws of the distributions are given; a vector of NaNs is `None` |
| C94 | `Nees_*` | `od/process/solution/stats.rs` (`nees_consistency` and the verdicts); over a real closed field; the eigendecomposition of nalgebra, the quantile of statrs and the true trajectory are oracles |
| C97 | `Opt_*` | `propagators/options.rs`, the constructors and setters of `propagators/propagator.rs`; the steps are those of `Prop_Model` |
| C98 | `Snc_*` | `from_velocity_km_s` of `od/snc.rs`, `set_process_noise` of `od/kalman/filtering.rs`; the filter is that of `Kf_Model` |
| C99 | `Eq_*` | `PartialEq` of `Measurement` and `TrackingDataArc`; no NaN |
| C100 | `Link_*` | the named levels of `od/noise/link_specific.rs`; the noises are those of `Noise_Model` |
| C101 | `Pos_*` | `od/position/{mod,trk_device,sensitivity}.rs`, except `location` (unimplemented) and serialization; the noises are those of `Noise_Model`, the process that of `Odp_Model` |
| C102 | `Gpq_*` | `to_parquet` of `od/groundpnt/solution.rs`: names and contents of the columns; not the metadata, units and file |
| C103 | `Rdf_*` | `ric_diff_to_parquet` of `md/trajectory/traj.rs` and `smooth_state_diff_in_place` of `md/trajectory/mod.rs`; `ric_difference` of anise is an oracle; not the metadata, units and file |
| C104 C110 | `Oem_*`, `Gtk_*` | `from_bsp`, `to_ephemeris`, `from_oem_file` of `md/trajectory/sc_traj.rs` and `to_ephemeris` of `od/process/solution/export.rs`; the `Ephemeris` of anise as a map ordered by epoch; `to_groundtrack_parquet` of `sc_traj.rs`, anise's latitude, longitude and height being oracles; not the text of OEM files, nor the SPK files |
| C105 | `Mpq_*` | `to_parquet` of `mc/results.rs`; dates as such; not the metadata, names, units and file |

## Print Assumptions, theorem by theorem

Every theorem listed in MANIFEST.json, grouped by the axioms `Print Assumptions` lists for it. All of these axioms are those of the Coq standard library.

### Closed under the global context (202 theorems)

`C05_zero_duration`, `C104_bsp`, `C104_bsp_missing`, `C104_bsp_refuted`, `C104_empty_refuted`, `C104_ephemeris`, `C104_outside_refuted`, `C104_round_trip_partial`, `C104_sampled_partial`, `C105_failed`, `C105_failed_ignored`, `C105_lines_partial`, `C105_whole`, `C109_mass_refuted`, `C109_panics`, `C109_randomized`, `C109_refuses`, `C10_distinct_epochs_refuted`, `C10_finalize_partial`, `C12_between_partial`, `C12_no_panic`, `C12_outside`, `C12_stored`, `C12_window_refuted`, `C13_early_start_refuted`, `C13_grid_partial`, `C13_truncated`, `C13_zero_step_refuted`, `C14_filter_by_epoch`, `C14_filter_by_offset_partial`, `C14_offset_excluded_refuted`, `C15_add`, `C16_idempotent`, `C16_order_independent`, `C16_sort_partial`, `C16_sum`, `C17_chunk`, `C17_not_positive`, `C18_epoch_filters`, `C18_offset_filter_partial`, `C18_offset_refuted`, `C18_reject`, `C18_tracker_filters`, `C18_type_exclusion_partial`, `C18_type_filter`, `C20_unsorted_panics`, `C22_cadence`, `C22_eager_no_overlap`, `C22_empty_schedule_refuted`, `C22_greedy_no_overlap_partial`, `C22_greedy_overlap_refuted`, `C22_ordered_refuted`, `C22_overlap_exact`, `C22_samples_refuted`, `C22_visible`, `C22_visible_aligned`, `C22_visible_refuted`, `C23_sampling_grid`, `C23_terminates`, `C24_accepted_iff`, `C24_built`, `C24_simulator_iff`, `C25_codes_round_trip`, `C25_noise_round_trip_partial`, `C25_sampled_noise_refuted`, `C25_scheduler_round_trip`, `C25_spacecraft_round_trip_partial`, `C25_station_round_trip_partial`, `C25_strand_round_trip`, `C25_thruster_round_trip`, `C25_trkconfig_encodes`, `C25_trkconfig_round_trip`, `C26_covariance`, `C26_estimates`, `C27_optimal`, `C27_succeeds`, `C28_force_reject_refuted`, `C28_rejection`, `C29_any_order`, `C29_sequential_is_joint`, `C30_built`, `C30_correlations_refuted`, `C30_grows`, `C30_noise`, `C30_six_refuted`, `C30_start`, `C33_accepted_rejected`, `C33_aligned`, `C33_kind`, `C33_lookup`, `C33_split`, `C34_chronological_inputs`, `C34_chronological_refuted`, `C34_inverse_order`, `C34_merge_partial`, `C35_chain_refuted`, `C35_covariances`, `C35_ratios`, `C35_residuals_refuted`, `C35_short_refuted`, `C35_singular`, `C35_smooth_partial`, `C37_covariance`, `C37_evaluate`, `C37_kf_estimate_refuted`, `C37_normal_equations`, `C37_not_after`, `C37_prior_refuted`, `C37_simultaneous_refuted`, `C37_solution`, `C37_stm_refuted`, `C37_twice_refuted`, `C38_damped_step`, `C38_damping_range`, `C38_refused_forever`, `C38_reported_residuals`, `C38_worse_refuted`, `C39_gauss_markov_new_partial`, `C45_guided`, `C45_setup`, `C45_validate`, `C47_more_runs_append`, `C47_reproducible`, `C47_resume_numbers`, `C47_resume_partial`, `C47_schedule_independent`, `C48_asymmetric_refuted`, `C48_coefficients`, `C48_coefficients_refuted`, `C48_from_covariance`, `C48_mass_refuted`, `C48_not_psd_refused`, `C48_orbital_partial`, `C48_reported`, `C48_shown_deviation_refuted`, `C48_sign_refuted`, `C48_unsupported`, `C48_zero_mean`, `C50_between_0_360_f64_refuted`, `C50_pseudo_inverse_exists_iff_full_rank`, `C50_pseudo_inverse_least_norm`, `C50_pseudo_inverse_least_squares`, `C50_pseudo_inverse_one_sided`, `C57_rebuild`, `C57_rebuild_outside`, `C57_resample`, `C57_to_frame`, `C58_postfit_refuted`, `C58_ratio_refuted`, `C58_reference_partial`, `C59_filter_refuted`, `C60_interlink_doppler_refuted`, `C63_add_remove`, `C66_antichronological`, `C67_replay_in_force`, `C67_replay_looks_ahead`, `C67_replay_outside`, `C70_dispersion_values`, `C70_every_value`, `C70_failures_left_out`, `C70_one_value_per_run`, `C78_blind`, `C78_error`, `C78_exact`, `C78_prediction`, `C81_jacobian2`, `C87_advances`, `C87_follows`, `C88_covariance`, `C88_dispersed`, `C88_dispersed_refuted`, `C88_elements`, `C88_exported`, `C88_exported_refuted`, `C88_local_partial`, `C88_local_refuted`, `C88_randomized`, `C88_refuses`, `C88_scaled`, `C88_sigma`, `C90_reads`, `C90_round_trip`, `C90_selected`, `C90_unreadable`, `C90_writes`, `C92_thruster_refuted`, `C94_bounds`, `C94_certain_refuted`, `C94_clipped_refuted`, `C94_nees`, `C94_power`, `C94_refused`, `C94_size`, `C94_unknown_truth`, `C94_verdict`, `C96_orbits`, `C97_setters`, `C97_setting`, `C98_added`, `C98_set_refuted`, `C98_square`, `C98_square_refuted`.

### `ClassicalDedekindReals.sig_forall_dec` (41 theorems)

`C101_built`, `C104_start_refuted`, `C105_end_refuted`, `C105_step_refuted`, `C108_error_refuted`, `C108_read`, `C108_round_trip`, `C16_later_wins_refuted`, `C16_sum_moduli_refuted`, `C18_type_exclusion_refuted`, `C24_rejected_device_ignored_refuted`, `C24_zero_sampling_refuted`, `C39_gauss_markov_new_refuted`, `C39_scaling_refuted`, `C45_no_panic`, `C46_state_vector`, `C46_vector_injective`, `C46_vector_length`, `C47_resume_refuted`, `C49_arithmetic_total_refuted`, `C49_coeff_in_order_exact`, `C49_set_coefficient_partial`, `C49_sum_documented_domain_refuted`, `C49_sum_panics_iff`, `C59_absent_refuted`, `C59_present`, `C62_assembled`, `C63_bias_refuted`, `C63_unconfigured_refuted`, `C68_local_frame_unused`, `C70_every_value_refuted`, `C75_config_never_cof`, `C75_fits`, `C76_built`, `C76_default_built`, `C79_vector`, `C85_four_objectives_refuted`, `C90_frequency_refuted`, `C90_last_refuted`, `C90_missing_refuted`, `C90_rejected_refuted`.

### `ClassicalDedekindReals.sig_forall_dec`, `FunctionalExtensionality.functional_extensionality_dep` (104 theorems)

`C101_rows`, `C103_among_differences`, `C103_drift`, `C103_in_place_refuted`, `C103_median`, `C103_spike_refuted`, `C103_unsmoothed`, `C104_masses_refuted`, `C104_solution`, `C114_madrid_refuted`, `C114_sites_partial`, `C19_apply`, `C19_boundary_refuted`, `C19_negative_refuted`, `C19_recovers_partial`, `C19_resolve_partial`, `C19_set_moduli`, `C20_coverage_refuted`, `C20_decimation`, `C20_downsample`, `C20_moduli_refuted`, `C20_rejected_refuted`, `C20_settings`, `C21_angle_refuted`, `C21_frequency_refuted`, `C21_position_refuted`, `C21_rejected_refuted`, `C21_round_trip_partial`, `C21_same_arc`, `C21_time_scale_refuted`, `C21_units_ignored`, `C36_within_threshold`, `C39_scaled_samples_partial`, `C39_variance`, `C39_white_new`, `C39_white_samples`, `C46_add_deviation`, `C46_add_zero`, `C46_mode_roundtrip`, `C46_reflectivity_after_add`, `C46_reflectivity_after_set`, `C46_vector_roundtrip_but_reflectivity`, `C46_vector_roundtrip_refuted`, `C46_vector_roundtrip`, `C49_add_to_coefficient_refuted`, `C49_common_polynomials_exact`, `C49_difference_exact`, `C49_eval_n_deriv_exact`, `C49_eval_panics_iff_empty`, `C49_from_most_significant_value`, `C49_offset_exact`, `C49_scaling_exact`, `C49_set_then_get_coefficient_refuted`, `C49_sum_exact`, `C49_zero_below_tolerance_exact`, `C49_zero_power_exact`, `C50_between_0_360_canonical`, `C50_between_0_360_exact`, `C50_between_pm_180_half_open_refuted`, `C50_between_pm_x_exact`, `C50_between_pm_x_inside`, `C50_eigenvalues_stable_iff`, `C50_is_diagonal_iff`, `C50_kronecker_exact`, `C50_normalize_denormalize`, `C50_normalize_range`, `C50_projection_decomposition_partial`, `C50_projection_decomposition_refuted`, `C50_tilde_is_cross_product`, `C52_bounds`, `C56_interpolated_state`, `C56_mass_partial`, `C56_mass_refuted`, `C68_effect`, `C68_local_frame_refuted`, `C68_negative_mass_refuted`, `C68_round_trip`, `C72_one_way_refuted`, `C72_other_station_refuted`, `C72_range_rates_partial`, `C75_cof_exponent_refuted`, `C75_config_refuted`, `C75_order_above_degree_refuted`, `C75_order_refuted`, `C76_lit`, `C76_shadow`, `C76_two_bodies_refuted`, `C80_instantaneous`, `C80_rates_unseen`, `C80_tracker_refuted`, `C83_earth_moon`, `C84_jacobian`, `C84_step`, `C85_destination_refuted`, `C96_opposite`, `C97_built`, `C97_initial_refuted`, `C99_arcs`, `C99_measurement`, `C99_reflexive`, `C99_rejected_refuted`, `C99_same_content`, `C99_symmetric_refuted`, `C99_transitive_refuted`

### `ClassicalDedekindReals.sig_forall_dec`, `ClassicalDedekindReals.sig_not_dec`, `FunctionalExtensionality.functional_extensionality_dep` (134 theorems)

`C08_linear`, `C08_order_conditions`, `C08_quadrature_exact`, `C08_quadrature`, `C09_direction_partial`, `C09_direction_refuted`, `C09_mass_error_ignored`, `C09_monotone`, `C09_nonneg`, `C09_proportional`, `C09_zero_iff`, `C101_bias_refuted`, `C101_coordinates_partial`, `C101_fourth_refuted`, `C101_noise`, `C101_order_refuted`, `C101_residual_refuted`, `C102_observables_refuted`, `C102_selection_refuted`, `C102_writes_partial`, `C114_measures`, `C36_ks_partial`, `C36_ks_single_refuted`, `C36_nis_verdict`, `C36_nis`, `C36_rms_partial`, `C36_rms_postfit_rejected_refuted`, `C36_rms_postfit_scaled`, `C36_rms_prefit_scaled`, `C36_rms_ratio_scaled`, `C36_rms_time_updates_refuted`, `C39_first_variance`, `C39_hardware`, `C39_history`, `C39_later_variance_partial`, `C39_pr_n0`, `C39_scaled_bias_partial`, `C40_from_impulsive_refused_refuted`, `C40_impulsive`, `C40_inhibit_refuted`, `C41_consumption_rate`, `C41_steady_never_increases`, `C43_plane_angles_unit`, `C43_ra_dec_unit`, `C44_forces`, `C44_magnitude`, `C44_thrust`, `C46_direction_unit`, `C50_elementary_rotations_compose`, `C50_elementary_rotations_turn_coordinates`, `C50_elementary_rotations`, `C50_rotv_is_rotation`, `C50_rss_errors_distance`, `C50_unitize_exact`, `C53_same_motion`, `C55_local_error`, `C61_rate_partial`, `C61_rate_refuted`, `C62_azimuth_refuted`, `C62_bias_refuted`, `C62_bias_two_way_refuted`, `C62_no_bias`, `C62_noise`, `C62_two_way`, `C62_variance_refuted`, `C62_variance`, `C63_builds`, `C63_timestamp_refuted`, `C65_efficiency_range`, `C66_direction_at_start`, `C66_fixed_vector_not_normalized_refuted`, `C67_replay_mode`, `C73_angular_momentum`, `C73_duplicate_refuted`, `C73_energy`, `C73_model_order`, `C73_point_masses`, `C73_sum`, `C74_spherical`, `C75_cof`, `C75_j2_refuted`, `C75_j2`, `C75_shadr`, `C75_unsorted_refuted`, `C76_cr_refuted`, `C76_dropped_refuted`, `C76_force`, `C76_orientation_refuted`, `C76_umbra`, `C79_unique`, `C80_absent_refuted`, `C80_averaged`, `C80_doppler_refuted`, `C80_present`, `C80_weights`, `C81_asymptote_unique`, `C81_exists`, `C81_plane`, `C82_achieved`, `C82_bt_br`, `C82_closer`, `C82_ineffective`, `C82_step`, `C84_correction_frame_refuted`, `C84_delta`, `C84_objective_frame_refuted`, `C84_one_correction`, `C84_solution`, `C84_vnc_refuted`, `C85_converged`, `C85_energy`, `C85_fuel_is_energy`, `C85_fuel_refuted`, `C85_jacobian_partial`, `C85_jacobian_refuted`, `C85_last_block_refuted`, `C85_no_correction_refuted`, `C85_reaches`, `C85_segment`, `C85_solution`, `C85_two_nodes_refuted`, `C86_altitude`, `C86_destination_frame_refuted`, `C86_equidistant_refuses`, `C86_equidistant`, `C86_last_epoch_partial`, `C86_last_epoch_refuted`, `C86_linear_refuted`, `C87_backward_refuted`, `C87_frame_refuted`, `C87_idle`, `C87_missed_refuted`, `C87_thrust`, `C91_direction`

### `ClassicalDedekindReals.sig_forall_dec`, `ClassicalDedekindReals.sig_not_dec`, `Classical_Prop.classic`, `FunctionalExtensionality.functional_extensionality_dep` (268 theorems)

`C01_stop_epoch`, `C01_until_epoch`, `C02_backward_epochs`, `C02_forward_epochs`, `C03_backward_terminates`, `C03_forward_terminates`, `C04_attempts`, `C04_backward_tolerance_refuted`, `C04_forward_step`, `C05_backward_stop_refuted`, `C05_config_kept_backward`, `C05_config_kept_forward`, `C05_failed_last_step_refuted`, `C06_fixed_step_composes_backward`, `C06_fixed_step_composes`, `C07_first_satisfying_state`, `C100_bands`, `C100_doppler`, `C100_levels`, `C100_ordered`, `C100_range`, `C103_dates_refuted`, `C103_disjoint_refuted`, `C103_drift_refuted`, `C103_rows_partial`, `C106_dates`, `C106_direction`, `C106_duration_refuted`, `C106_level_refuted`, `C106_local_frame`, `C106_mixed_refuted`, `C106_rate_axis_refuted`, `C106_small_refuted`, `C106_state`, `C107_errors`, `C107_trajectories`, `C110_end_refuted`, `C110_refused`, `C110_track_partial`, `C111_eccentricity_below`, `C111_eccentricity_refuted`, `C111_share_partial`, `C112_blend`, `C112_idle`, `C112_thrusts`, `C113_sum`, `C11_backward_traj`, `C11_forward_traj`, `C11_schedule_independent`, `C31_back_in_time_refuted`, `C31_backward_refuted`, `C31_gap_refuted`, `C31_order`, `C31_precision_loop_refuted`, `C31_precision_refuted`, `C31_terminates`, `C31_visits`, `C32_divisible`, `C32_duration`, `C32_end_refuted`, `C32_predict_partial`, `C32_step_refuted`, `C32_terminates`, `C36_is_normal_partial`, `C39_decay_refuted`, `C39_variance_refuted`, `C40_mode`, `C40_overshoot_refuted`, `C40_short_burn_skipped_refuted`, `C41_coasting_step`, `C41_constant`, `C41_consumption`, `C41_increase_refuted`, `C41_never_increases_partial`, `C41_never_negative`, `C41_zero_duration_refuted`, `C42_inhibited_unchanged`, `C42_kluever_from_max_eclipse`, `C42_kluever_mode`, `C42_kluever_new`, `C42_kluever_weights_refuted`, `C42_ruggiero_built`, `C42_ruggiero_eclipse_refuted`, `C42_ruggiero_mode_partial`, `C42_unavailable_objective_panics`, `C43_plane_angles_roundtrip_refuted`, `C43_plane_angles_swapped`, `C43_ra_dec_angles`, `C43_ra_dec_roundtrip`, `C45_continuity`, `C45_disabled_phase_refuted`, `C45_phases`, `C45_spans`, `C45_started_phase_refuted`, `C45_unguided_mode`, `C45_valid_panics_refuted`, `C46_set_range_direction`, `C46_set_value_leaves_others`, `C46_set_value_succeeds`, `C46_total_mass`, `C46_value_after_negative_range_refuted`, `C46_value_after_set_direction_refuted`, `C46_value_after_set_magnitude`, `C46_value_after_set_value`, `C50_cartesian_roundtrip_pole_refuted`, `C50_cartesian_roundtrip`, `C50_mag_order_exact`, `C50_spherical_roundtrip`, `C51_direction`, `C51_finite`, `C51_no_time_refuted`, `C51_opposite_refuted`, `C51_outcomes`, `C51_past_arrival`, `C51_phi_refuted`, `C51_same_conic`, `C51_time_of_flight_partial`, `C52_angle_rate_refuted`, `C52_apply_partial`, `C52_checks`, `C52_dates`, `C52_duration_lost`, `C52_duration_refuted`, `C52_level_refuted`, `C52_local_frame_refuted`, `C52_maneuver_partial`, `C52_mixed_no_maneuver`, `C52_mixed_refuted`, `C52_reproduces`, `C52_scaled_apply_refuted`, `C52_solution`, `C52_step_partial`, `C52_step_refuted`, `C52_total_bounds_refuted`, `C53_first_order`, `C53_left_composition_refuted`, `C53_order_refuted`, `C53_position_block`, `C53_right_composition`, `C54_backward_never_succeeds`, `C54_backward_refuted`, `C54_event_frame_refuted`, `C54_exact_zero_refuted`, `C54_first_event`, `C54_found`, `C54_integration_frame_refuted`, `C54_last_step_refuted`, `C54_not_found`, `C54_root`, `C60_azimuth_refuted`, `C60_doppler`, `C60_elevation_partial`, `C60_elevation_refuted`, `C60_interlink_partial`, `C60_measured_refuted`, `C60_range`, `C64_equinoctial_h_refuted`, `C64_equinoctial_k_refuted`, `C64_equinoctial_partial`, `C64_kluever_idle_thrusts`, `C64_kluever_plane`, `C64_kluever_steers`, `C64_kluever_unit`, `C64_periapsis_refuted`, `C64_ruggiero_periapsis_partial`, `C64_ruggiero_steers`, `C64_ruggiero_unit`, `C66_rate_readback_refuted`, `C66_set_direction_keeps_rates`, `C66_set_direction_succeeds`, `C66_set_direction`, `C66_set_unit_rate`, `C67_recorded_burn_lags_refuted`, `C69_moment_energy`, `C69_same_conic_partial`, `C69_same_conic_refuted`, `C69_same_position_refuted`, `C71_factor_refuted`, `C71_one_correction`, `C73_center_only`, `C73_disturbing_function`, `C73_gradient`, `C73_point_mass_gradient_excess`, `C73_point_mass_gradient_refuted`, `C74_acceleration`, `C74_dynamics`, `C74_gradient_of_potential`, `C74_gradient`, `C75_acceleration`, `C76_dynamics`, `C76_gradient`, `C76_penumbra_refuted`, `C77_constant`, `C77_exponential_density`, `C77_exponential_refuted`, `C77_inertial_refuted`, `C77_no_partials`, `C77_orientation_refuted`, `C77_std_built_refuted`, `C77_std_density_refuted`, `C77_std_density`, `C77_units_refuted`, `C77_velocity_ignored`, `C79_great_circle_metric`, `C79_great_circle`, `C79_jacobian`, `C79_round_trip_partial`, `C79_round_trip_refuted`, `C79_velocity`, `C80_gradient`, `C80_line`, `C80_motion`, `C80_range_partial`, `C80_range_refuted`, `C80_stm_refuted`, `C81_angle`, `C81_jacobian`, `C81_ltof_refuted`, `C81_ltof_zero`, `C82_default_tolerance_refuted`, `C82_ltof_flat`, `C82_ltof_never`, `C82_ltof_refuted`, `C83_acceleration`, `C83_gradient`, `C89_failures`, `C89_prediction`, `C89_process`, `C91_coefficients_refuted`, `C91_direction_refuted`, `C91_reads`, `C91_round_trip`, `C91_thruster_refuted`, `C92_frequency_refuted`, `C92_gains_refuted`, `C92_reads`, `C92_selection_refuted`, `C92_spacecraft_refuted`, `C92_unreadable_refuted`, `C92_whitened_refuted`, `C92_writes`, `C93_aligned`, `C93_cancelled_refuted`, `C93_direction`, `C93_execution_aligned`, `C93_execution_refuted`, `C93_execution`, `C93_no_error`, `C93_pointing_refuted`, `C93_pointing`, `C93_refused`, `C93_reversed_refuted`, `C93_sphere`, `C93_uniform`, `C95_derivatives`, `C95_search`, `C95_time_of_flight_partial`, `C96_asymptote`, `C96_input`, `C96_outgoing_refuted`, `C96_same_orbit`, `C97_attempts`, `C97_first_step`, `C97_fixed`, `C97_greatest_refuted`, `C97_smallest_wins`, `C97_tried_first`, `C97_within`
