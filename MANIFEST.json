{"claims": [
 {"property": "C01", "status": "proved", "theorems": ["c01_torque_tangent", "c01_torque_tangent_injected", "c01_noise_torque_tangent", "c01_rhs_characterised", "c01_rhs_frame", "c01_noise_torque_is_llg"], "note": "over the reals"},
 {"property": "C02", "status": "proved", "theorems": ["c02_damping_dissipates"], "note": "over the reals"},
 {"property": "C03", "status": "proved", "theorems": ["c03_run_normalised", "c03_log_normalised", "c03_step_normalised", "c03_quiet_euler_unit", "c03_step_frame"], "note": "over the reals"},
 {"property": "C04", "status": "proved", "theorems": ["c04_snapshot"], "note": "over the reals"},
 {"property": "C05", "status": "proved", "theorems": ["c05_run_characterised", "c05_run_succeeds", "c05_time_grid", "c05_row_count"], "note": "over the reals"},
 {"property": "C06", "status": "proved", "theorems": ["c06_columns_aligned", "c06_column_lengths", "c06_repeated_ids_refuted"], "note": "over the reals; c06_repeated_ids_refuted: duplicate layer ids, accepted by the constructors, misalign the columns (finding)"},
 {"property": "C07", "status": "proved", "theorems": ["c07_current_duplicated", "c07_plain_current"], "note": "finding: the current column is written twice per row"},
 {"property": "C08", "status": "proved", "theorems": ["c08_write_frequency"], "note": "over the reals"},
 {"property": "C09", "status": "proved", "theorems": ["c09_member_setter", "c09_member_setter_refused", "c09_junction_setter", "c09_junction_setter_fails", "c09_junction_setter_accepted"], "note": "a refused spin-orbit driver setter still switches the torque on, and with 'all' the layers before the refusing one keep the change (finding); the id-missing case is side-effect free"},
 {"property": "C10", "status": "proved", "theorems": ["c10_symmetric", "c10_one_pair", "c10_no_pair", "c10_pair_accepted"], "note": "over the reals"},
 {"property": "C11", "status": "proved", "theorems": ["c11_two_layers", "c11_one_layer", "c11_range", "c11_extremes", "c11_pinned_range_refuted"], "note": "c11_pinned_range_refuted: a single-layer junction with a reference vector that is not of length one leaves the range (finding)"},
 {"property": "C12", "status": "proved", "theorems": ["c12_strip", "c12_strip_defined", "c12_reading", "c12_parallel_bounds", "c12_parallel_exists"], "note": "over the reals"},
 {"property": "C13", "status": "proved", "theorems": ["c13_selection", "c13_dormand_prince_is_rk4"], "note": "finding: Dormand-Prince requests run plain RK4"},
 {"property": "C14", "status": "proved", "theorems": ["c14_deterministic"], "note": "over the reals"},
 {"property": "C15", "status": "proved", "theorems": ["c15_effective_field", "c15_effective_field_injected", "c15_affine", "c15_frame", "c15_remembered_terms"], "note": "over the reals"},
 {"property": "C16", "status": "proved", "theorems": ["c16_anisotropy_gradient"], "note": "over the reals"},
 {"property": "C17", "status": "proved", "theorems": ["c17_exchange_gradient", "c17_exchange_sum", "c17_action_reaction"], "note": "over the reals"},
 {"property": "C18", "status": "proved", "theorems": ["c18_idmi_total_torque", "c18_action_reaction_refuted"], "note": "general formula plus c18_action_reaction_refuted: the pair torques do not cancel (finding)"},
 {"property": "C19", "status": "proved", "theorems": ["c19_rest_run", "c19_rest_step", "c19_rest_persists"], "note": "over the reals"},
 {"property": "C20", "status": "proved", "theorems": ["c20_torques_vanish_on_polariser"], "note": "over the reals"},
 {"property": "C21", "status": "proved", "theorems": ["c21_field", "c21_torque", "c21_motion", "c21_dipole_step", "c21_noise", "c21_layer_created", "c21_plain_created", "c21_classic_created", "c21_axial_drivers", "c21_run", "c21_calls", "c21_readings", "c21_strip_refuted"], "note": "over the reals; success-only simulation in both directions (which exception is raised first may differ), random numbers drawn in triples are relabelled within the triple, strip resistance excluded"},
 {"property": "C22", "status": "proved", "theorems": ["c22_constant", "c22_step", "c22_sine", "c22_positive_sine", "c22_pulse", "c22_phase_shift"], "note": "over the reals"},
 {"property": "C23", "status": "proved", "theorems": ["c23_half_sine"], "note": "the code keeps the non-positive half of the sine"},
 {"property": "C24", "status": "proved", "theorems": ["c24_trapezoid", "c24_zero_edge"], "note": "over the reals"},
 {"property": "C25", "status": "proved", "theorems": ["c25_gaussian_impulse", "c25_gaussian_step_is_impulse", "c25_gaussian_step_wave", "c25_gaussian_step_sharp"], "note": "finding: the Gaussian step factory builds a Gaussian impulse"},
 {"property": "C26", "status": "proved", "theorems": ["c26_scaling", "c26_scaling_restriction", "c26_adding", "c26_set_constant"], "note": "over the reals"},
 {"property": "C27", "status": "proved", "theorems": ["c27_mask", "c27_mask_vector", "c27_axial_factories", "c27_axial_constant", "c27_axial_list", "c27_unit_axis"], "note": "over the reals"},
 {"property": "C28", "status": "proved", "theorems": ["c28_plain_drivers_kept", "c28_override_ignored", "c28_override_is_base"], "note": "finding: a user subclass's value function is ignored inside axial drivers"},
 {"property": "C29", "status": "proved", "theorems": ["c29_operations_are_euclidean", "c29_laws", "c29_normalize", "c29_division", "c29_lists_and_indexing", "c29_equality"], "note": "over the reals"},
 {"property": "C30", "status": "proved", "theorems": ["c30_stack_resistance", "c30_series_above", "c30_parallel_below", "c30_parallel_defined"], "note": "over the reals"},
 {"property": "C31", "status": "proved", "theorems": ["c31_step", "c31_first_member", "c31_cumulative", "c31_current_values", "c31_uncoupled", "c31_coupling", "c31_polariser", "c31_delay"], "note": "over the reals"},
 {"property": "C32", "status": "proved", "theorems": ["c32_run", "c32_run_succeeds", "c32_row", "c32_columns", "c32_clear", "c32_saved", "c32_saved_noname", "c32_negative_time_refuted"], "note": "holds for every history of stack calls; c32_negative_time_refuted: a negative total time wraps to a huge step count (finding)"},
 {"property": "C33", "status": "proved", "theorems": ["c33_constructor", "c33_oersted", "c33_external", "c33_current", "c33_reset_current", "c33_accepted", "c33_magnetisation", "c33_anisotropy", "c33_index_out", "c33_couplings", "c33_couplings_refused", "c33_coupling", "c33_getters"], "note": "over the reals"},
 {"property": "C34", "status": "proved", "theorems": ["c34_upper_layers_still", "c34_noise_mismatch", "c34_members_move_refuted"], "note": "finding: all members are stepped with the last member's runner; c34_members_move_refuted gives a stack whose upper layer never moves"},
 {"property": "C35", "status": "proved", "theorems": ["c35_tensor", "c35_accepts", "c35_refuses", "c35_symmetric", "c35_traceless", "c35_swap", "c35_shift", "c35_scale", "c35_axis"], "note": "over the reals; positions at least 1e-10 apart"},
 {"property": "C36", "status": "proved", "theorems": ["c36_kanao", "c36_noumra", "c36_ratio", "c36_refuse", "c36_reciprocal"], "note": "over the reals; also each formula against the dipole field and the action-reaction law"},
 {"property": "C37", "status": "proved", "theorems": ["c37_construction", "c37_construction_refused", "c37_step_sequential", "c37_step", "c37_builtin", "c37_choice", "c37_null_field", "c37_alone", "c37_order", "c37_order_steps", "c37_run", "c37_run_any", "c37_rows", "c37_run_exists", "c37_frequency_refused", "c37_noise_refused", "c37_clear", "c37_getLog", "c37_getLog_out"], "note": "simultaneity holds for interaction functions that do not read the reserved dipole field (c37_step); for any function the sequential form c37_step_sequential"},
 {"property": "C38", "status": "proved", "theorems": ["c38_construction", "c38_wired", "c38_field", "c38_feels_itself", "c38_intended_refuted", "c38_last_cell", "c38_last_unfelt", "c38_step", "c38_step_scheme", "c38_run", "c38_run_exists", "c38_columns", "c38_names_distinct", "c38_set_external", "c38_set_anisotropy", "c38_set_all", "c38_getLayer", "c38_getMagnetisation", "c38_clear", "c38_save"], "note": "c38_intended_refuted is the finding; whole runs, log columns, setters and getters characterised"},
 {"property": "C39", "status": "proved", "theorems": ["c39_ticks", "c39_constructor", "c39_entries", "c39_single", "c39_white_refuted", "c39_weights"], "note": "holds; also the content of the buffers is characterised (exact Fourier sums over the reals), c39_white_refuted is a finding"},
 {"property": "C40", "status": "proved", "theorems": ["c40_pink_samples", "c40_pink_tick", "c40_pink_clear", "c40_pink_bounded", "c40_pink_centred_refuted", "c40_onef_constructor", "c40_onef_tick", "c40_onef_tick2", "c40_onef_total", "c40_onef_bounded"], "note": "for every stream of draws within the range of the distribution"},
 {"property": "C41", "status": "proved", "theorems": ["c41_constructor", "c41_none_raises", "c41_calls", "c41_shape", "c41_previous", "c41_layer_source"], "note": "for any sequence of tickVector and tick calls"},
 {"property": "C42", "status": "proved", "theorems": ["c42_derivative", "c42_length_rate", "c42_field", "c42_longitudinal_field", "c42_towards_equilibrium", "c42_towards_zero", "c42_zero_temperature", "c42_relaxation_below", "c42_relaxation_above", "c42_limit_below", "c42_limit_above", "c42_equilibrium_run", "c42_anisotropy_refuted"], "note": "Proved for no applied field and no anisotropy; with anisotropy the relaxation part is refuted (c42_anisotropy_refuted)."},
 {"property": "C43", "status": "proved", "theorems": ["c43_parallel", "c43_perpendicular", "c43_agree_at_Tc", "c43_continuous", "c43_ordered"], "note": ""},
 {"property": "C44", "status": "proved", "theorems": ["c44_history_time", "c44_time_determined", "c44_time_column", "c44_junction_restarts", "c44_clear"], "note": ""},
 {"property": "C45", "status": "proved", "theorems": ["c45_from_cartesian", "c45_from_cvector", "c45_to_cartesian", "c45_unique", "c45_round_trip", "c45_round_trip_spherical", "c45_add", "c45_scale", "c45_componentwise", "c45_eq", "c45_eq_geometric_refuted", "c45_vector2angle", "c45_angle2vector", "c45_scan_round_trip", "c45_scan_round_trip_angles", "c45_agree"], "note": "over the reals: signed zeros and underflow are not modelled; c45_eq_geometric_refuted: == compares coordinates, not vectors"},
 {"property": "C46", "status": "proved", "theorems": ["c46_scan", "c46_scan_back", "c46_palindrome", "c46_magnitude", "c46_single", "c46_negative", "c46_theta_scan", "c46_phi_scan", "c46_degrees"], "note": "over the reals; c46_single: a one-point scan never reaches stop"},
 {"property": "C47", "status": "proved", "theorems": ["c47_find", "c47_roots", "c47_fresh", "c47_origin", "c47_covered", "c47_terminates", "c47_short_interval", "c47_complete_refuted"], "note": "the solver is an arbitrary function from guess to optional root; c47_complete_refuted and c47_short_interval are findings"},
 {"property": "C48", "status": "proved", "theorems": ["c48_complete", "c48_never_fails", "c48_combinations", "c48_distinct", "c48_schedule", "c48_repeated_refuted"], "note": "shuffle and completion order are arbitrary permutations; c48_repeated_refuted is the exception for repeated values"},
 {"property": "C49", "status": "proved", "theorems": ["c49_descent", "c49_best", "c49_returned", "c49_unimproved", "c49_aliasing_refuted", "c49_one_key", "c49_negative"], "note": "objective is an arbitrary function of the dictionary; c49_aliasing_refuted: the returned dictionary need not have the returned score"},
 {"property": "C50", "status": "proved", "theorems": ["c50_layers", "c50_series", "c50_parallel", "c50_one_layer", "c50_order", "c50_samples_series", "c50_samples_parallel", "c50_samples_total", "c50_strip", "c50_gmr", "c50_gmr_junction", "c50_gmr_range", "c50_mr", "c50_mr_sum", "c50_mr_refuted", "c50_angular", "c50_angular_polar_refuted", "c50_linearised_series", "c50_linearised_parallel", "c50_linearised_angles", "c50_linearised_never_fails", "c50_linearised_mirror_refuted"], "note": "over the reals; signed zeros ignored; sympy expressions kept as built; findings: c50_mr_refuted, c50_angular_polar_refuted, c50_linearised_mirror_refuted"},
 {"property": "C51", "status": "proved", "theorems": ["c51_constructed", "c51_unrelaxed_width", "c51_at_most_two", "c51_current_only", "c51_moves", "c51_one_dissipates", "c51_pair_dissipates", "c51_coupling_opposite", "c51_no_coupling_aligned", "c51_undamped_fails", "c51_static_width", "c51_width_settles", "c51_pinning_field", "c51_field_contribution", "c51_run", "c51_first_velocity", "c51_second_velocity_refuted", "c51_static_width_unused_refuted"], "note": "over the reals; the RK45 integrator is an arbitrary trace of steps; the velocity of a second wall is refuted"},
 {"property": "C52", "status": "proved", "theorems": ["c52_ampere", "c52_ampere_law_refuted", "c52_reciprocal", "c52_biot_savart", "c52_block_updates", "c52_same_block", "c52_squared_distance", "c52_created", "c52_cells", "c52_created_built", "c52_reset", "c52_region_currents", "c52_region_failure_keeps", "c52_region_total", "c52_region_to_the_end", "c52_region_total_refuted", "c52_region_by_coordinate", "c52_coordinates", "c52_default_end_fails", "c52_computed", "c52_recomputed", "c52_region_sum", "c52_regions_add", "c52_contribution", "c52_contribution_by_coordinate", "c52_contributions_agree", "c52_last_row_refuted", "c52_shown", "c52_stays_built"], "note": "over the reals; halved distances, region totals, default ends and the -1 slice are refuted as findings"},
 {"property": "C53", "status": "proved", "theorems": ["c53_spectrum", "c53_spectrum_exists", "c53_spectrum_unique", "c53_lengths", "c53_short_refuted", "c53_mixed_lengths", "c53_mixed", "c53_mixed_exists", "c53_mixed_short", "c53_late", "c53_unknown", "c53_mixed_unknown"], "note": "FFT idealised over the reals; c53_short_refuted is the exception for one or two samples"},
 {"property": "C54", "status": "proved", "theorems": ["c54_hessian", "c54_hermitian", "c54_solver_hessian", "c54_solver_hermitian", "c54_solver_hessian_available", "c54_one_layer_roots"], "note": "over the reals; sympy expressions kept as built; roots of several layers not computed"},
 {"property": "C55", "status": "proved", "theorems": ["c55_adam", "c55_amsgrad", "c55_adam_answers", "c55_amsgrad_answers", "c55_adam_step", "c55_amsgrad_step", "c55_adam_reach", "c55_amsgrad_reach", "c55_stationary_start"], "note": "gradient, noise and parameters arbitrary; step bound needs b1^2 < b2 < 1"},
 {"property": "C56", "status": "proved", "theorems": ["c56_volumetric_ignored", "c56_scan", "c56_scan_keeps_fields_refuted"], "note": "equilibrium and root computation are oracles of the scan; c56_scan_keeps_fields_refuted: first field overwritten"},
 {"property": "C57", "status": "proved", "theorems": ["c57_thermal_sequence", "c57_shared_noise"], "note": "finding: layers copied from one object have identical thermal noise"},
 {"property": "C58", "status": "proved", "theorems": ["c58_rk4_layer", "c58_rk4_layer_succeeds", "c58_rk4_dipole_layer", "c58_rk4_dipole_layer_succeeds", "c58_rk4_single", "c58_rk4_multi", "c58_euler_heun", "c58_heun", "c58_noise", "c58_rk4_multi_state", "c58_rk4_single_state", "c58_euler_heun_state", "c58_heun_state"], "note": "over the reals"},
 {"property": "C59", "status": "proved", "theorems": ["c59_layer", "c59_layer_accepted", "c59_layer_refused", "c59_fresh_motion", "c59_unit_magnetisation_refuted", "c59_junction_plain", "c59_no_layers_refused", "c59_junction_classic_one", "c59_junction_classic_one_refused", "c59_junction_classic_two", "c59_junction_classic_many_refused", "c59_junction_strip"], "note": "over the reals; c59_unit_magnetisation_refuted: the constructor does not normalise the magnetisation (finding)"},
 {"property": "C60", "status": "proved", "theorems": ["c60_llg_remembers", "c60_llg_injected_remembers", "c60_rk4_injected_remembers", "c60_step_remembers", "c60_run_remembers", "c60_driver_columns", "c60_simultaneous_refuted", "c60_thermal_columns_zero"], "note": "over the reals; c60_simultaneous_refuted: driver columns of RK4 runs are one step late (finding); thermal columns always zero (finding)"},
 {"property": "C61", "status": "proved", "theorems": ["c61_exchange", "c61_exchange_symmetric", "c61_exchange_value", "c61_anisotropy_value", "c61_anisotropy_null", "c61_anisotropy_range", "c61_anisotropy", "c61_zeeman", "c61_zeeman_value", "c61_demag", "c61_demag_half", "c61_common_unit_refuted"], "note": "over the reals; c61_common_unit_refuted: Zeeman and demagnetising energies carry a factor mu0 the others lack (finding)"},
 {"property": "C62", "status": "proved", "theorems": ["c62_getLayer", "c62_getLayer_refused", "c62_getMagnetisation", "c62_getReference", "c62_getLayerIds", "c62_clear", "c62_saved", "c62_saved_noname", "c62_own_settings", "c62_own_settings_refused"], "note": "over the reals; file writing is modelled as the table of header and rows"},
 {"property": "C63", "status": "proved", "theorems": ["c63_langevin", "c63_derivative", "c63_derivative_defined", "c63_langevin_bounds", "c63_langevin_odd", "c63_weiss", "c63_physical_range", "c63_curie_point"], "note": ""},
 {"property": "C64", "status": "proved", "theorems": ["c64_heun_step", "c64_euler_heun_step", "c64_transverse_noise", "c64_longitudinal_noise", "c64_stochastic_torque", "c64_no_damping_no_step", "c64_run", "c64_run_succeeds", "c64_run_refused", "c64_setters", "c64_constructor", "c64_junction_starts", "c64_saved", "c64_unused_anisotropy_field", "c64_unused_torque"], "note": "Successful steps and runs fully characterised; a step that hits a non-finite value leaves a half-updated junction, which is modelled but only its refusal cases are stated."},
 {"property": "C65", "status": "proved", "theorems": ["c65_line", "c65_phase", "c65_top_bin_missing", "c65_diode", "c65_rectified", "c65_peak_to_peak", "c65_diode_exists", "c65_diode_empty", "c65_diode_unknown"], "note": "over the reals; c65_top_bin_missing is a finding"},
 {"property": "C66", "status": "proved", "theorems": ["c66_pair", "c66_radius", "c66_zero_draw"], "note": "uniform draws are arguments"},
 {"property": "C67", "status": "proved", "theorems": ["c67_energy", "c67_energy_available", "c67_layer_energy", "c67_two_layer_sum"], "note": "field given by arbitrary expressions"},
 {"property": "C68", "status": "proved", "theorems": ["c68_gradient", "c68_stationary"], "note": "over the reals"},
 {"property": "C69", "status": "proved", "theorems": ["c69_motion", "c69_dissipation", "c69_never_gains", "c69_torque", "c69_torque_damped_like_field_refuted"], "note": "softened sine as in the code; c69_torque_damped_like_field_refuted is a finding"},
 {"property": "C70", "status": "proved", "theorems": ["c70_resonance", "c70_thickness", "c70_thickness_independent_refuted"], "note": "c70_thickness_independent_refuted is a finding"},
 {"property": "C71", "status": "proved", "theorems": ["c71_jacobian", "c71_jacobian_available", "c71_linear_system", "c71_linear_system_available", "c71_response", "c71_response_scale", "c71_frequency_cache_refuted"], "note": "matrix inverse is an oracle with its defining property; finding: factor 1+alpha^2, cached frequency"},
 {"property": "C72", "status": "proved", "theorems": ["c72_layer", "c72_solver", "c72_distinct", "c72_one_to_ten", "c72_neighbours", "c72_solve"], "note": "dynamic and numeric solvers are oracles"},
 {"property": "C73", "status": "proved", "theorems": ["c73_pimm", "c73_static_field", "c73_pulse_field", "c73_weights", "c73_average_bound", "c73_frequency_axis", "c73_bins", "c73_history", "c73_split", "c73_join", "c73_wait_whole_run", "c73_zero_length", "c73_last_zero", "c73_resistance_of_magnetisations_refuted"], "note": "over the reals; progress bar and array squeezing not modelled, layer ids equal to output keys excluded; the resistance reading is refuted as a finding"},
 {"property": "C74", "status": "proved", "theorems": ["c74_vsd", "c74_series_sampled", "c74_sine_field", "c74_shape", "c74_requirements"], "note": "over the reals; filter coefficients are an oracle; resistance functions return one value per sample"},
 {"property": "C75", "status": "proved", "theorems": ["c75_filter", "c75_superposition", "c75_lowpass", "c75_bandpass", "c75_bandpass_frequency_refuted", "c75_bandpass_hertz_refuted", "c75_rectified", "c75_rectified_linear", "c75_rectified_step"], "note": "over the reals; filter coefficients are an oracle; band pass frequency and band in hertz are refuted as findings"},
 {"property": "C76", "status": "proved", "theorems": ["c76_table", "c76_run", "c76_unknown_layer", "c76_reserved_names", "c76_partly_logged", "c76_no_size", "c76_exchange_per_surface_refuted", "c76_own_magnetisation_refuted", "c76_simultaneous_refuted"], "note": "over the reals; the log of a run has unambiguous names (no underscore, no leading H); surface density, own magnetisation and simultaneity are refuted as findings"},
 {"property": "C77", "status": "proved", "theorems": ["c77_symmetric", "c77_antisymmetric", "c77_mixed", "c77_peak", "c77_half_width", "c77_dispersion_bound", "c77_even", "c77_odd", "c77_circle", "c77_identifiable", "c77_meinert", "c77_meinert_symmetry", "c77_meinert_identifiable"], "note": "over the reals"},
 {"property": "C78", "status": "proved", "theorems": ["c78_constant", "c78_sine", "c78_decay", "c78_decay_time", "c78_gaussian", "c78_gaussian_peak", "c78_hertz_refuted", "c78_deviation_refuted"], "note": "over the reals; units of frequency and sigma refuted as findings"},
 {"property": "C79", "status": "proved", "theorems": ["c79_columns", "c79_rows", "c79_total", "c79_zero_medians", "c79_idempotent", "c79_offsets", "c79_other_axis", "c79_axis_minus_two", "c79_negative_axis_refuted"], "note": "two-dimensional arrays over the reals; axis -2 refuted as a finding"},
 {"property": "C80", "status": "proved", "theorems": ["c80_exact", "c80_total", "c80_shape", "c80_walk", "c80_walk_start", "c80_renewal", "c80_counts", "c80_counts_full", "c80_always_renewed", "c80_unit_area", "c80_areas_ascend", "c80_periods_ascend", "c80_both_refused", "c80_neither_refused", "c80_unknown_refused", "c80_negative_refused", "c80_silence_refuted"], "note": "over the reals; the random draws are arbitrary functions; zero signal refuted as a finding"},
 {"property": "C81", "status": "proved", "theorems": ["c81_exact", "c81_energy", "c81_zero_lag", "c81_bounded", "c81_affine", "c81_period", "c81_constant", "c81_linear_refuted"], "note": "over the reals; the fast transforms are modelled as Fourier sums; linear correlation refuted as a finding"},
 {"property": "C82", "status": "proved", "theorems": ["c82_junction", "c82_stack", "c82_agree", "c82_refused", "c82_rows", "c82_logged", "c82_write_safe", "c82_times_close", "c82_times_increase", "c82_steps_bounds", "c82_steps_exact", "c82_steps_decimal", "c82_steps_decimal_refuted", "c82_literal", "c82_default_write", "c82_default_write_refuted", "c82_llgb", "c82_llgb_clock", "c82_llgb_increase", "c82_llgb_drift_refuted"], "note": "binary64 with rounding to nearest even (Flocq); infinite and NaN steps are not characterised; decimal step counts, default write interval and LLGB drift refuted as findings"},
 {"property": "C83", "status": "proved", "theorems": ["c83_exact", "c83_far", "c83_off_edges", "c83_agrees", "c83_step", "c83_step_value", "c83_full_duty_refuted", "c83_rising_edge_refuted"], "note": "binary64 with rounding to nearest even (Flocq); constant duty and decimal rising edge refuted as findings; sine, exponential and gaussian drivers stay real-valued"},
 {"property": "C84", "status": "proved", "theorems": ["c84_counts", "c84_bounds", "c84_exact", "c84_decimal", "c84_decimal_refuted", "c84_arange", "c84_element_value", "c84_element", "c84_axis_length", "c84_axis", "c84_axis_exact", "c84_axis_refuted", "c84_end_refuted", "c84_reservoir", "c84_reservoir_rows"], "note": "numpy.arange is modelled from its C implementation (length from the rounded quotient, elements from the first difference); decimal counts and the time axis refuted as findings"},
 {"property": "C85", "status": "proved", "theorems": ["c85_axes", "c85_axis_values", "c85_groups", "c85_mse", "c85_mse_sweep", "c85_error", "c85_columns_refuted", "c85_gap_refuted", "c85_layer", "c85_tilted_axis_refuted", "c85_sweep", "c85_simulation", "c85_field_refuted", "c85_config", "c85_names", "c85_partition", "c85_bounds_refuted", "c85_kwargs", "c85_suggestion", "c85_suggestion_error", "c85_words", "c85_lines", "c85_read", "c85_target", "c85_blank", "c85_gradient", "c85_changes", "c85_sign", "c85_line", "c85_extract_refuted"], "note": "Solver.solve, numpy's argsort and Python's float() are arguments of the model; widgets and figures are not modelled; six statements refuted as findings"},
 {"property": "C86", "status": "proved", "theorems": ["c86_transparent", "c86_disabled", "c86_energy", "c86_size", "c86_recent", "c86_failure", "c86_vector_eq", "c86_layer_eq", "c86_equal_energy_refuted", "c86_equal_torque_refuted"], "note": "hashes are arbitrary integers; functools.lru_cache is modelled from its documented behaviour (hash at call time, identity or equality on lookup, least recently used entry evicted); equality of energies and of torques of equal layers refuted as findings"},
 {"property": "C87", "status": "proved", "theorems": ["c87_modes", "c87_select", "c87_positions", "c87_positive", "c87_eigen", "c87_refused", "c87_linearised", "c87_solvable", "c87_vectors_refuted", "c87_ghz", "c87_around", "c87_roots", "c87_merge_refuted"], "note": "numpy.linalg.eig and the root finder are arguments (eig with its defining property where needed); single and half precision ignored; eigenvector and separation statements refuted as findings"},
 {"property": "C88", "status": "proved", "theorems": ["c88_order", "c88_places", "c88_empty", "c88_loop", "c88_trace", "c88_none"], "note": "the optimiser is any function of what it has observed; a worker leaves its outcome in its future when it finishes"},
 {"property": "C89", "status": "proved", "theorems": ["c89_sphere", "c89_sphere_unit", "c89_sphere_closed", "c89_trajectory", "c89_trajectory_radius", "c89_unit_refuted", "c89_coloured", "c89_coloured_unit_refuted", "c89_visited", "c89_unpack", "c89_unpack_defined", "c89_complete", "c89_diagonal_refuted", "c89_limits", "c89_scaled", "c89_scaled_defined", "c89_scaled_inside", "c89_curve", "c89_curve_ends", "c89_curve_refuted", "c89_stack", "c89_stack_adjacent", "c89_arrow_centred", "c89_arrow_refuted"], "note": "the numbers handed to matplotlib; colours, fonts and rendering are left out; itertools.permutations from its documentation; random sampling of rows is any choice of rows; unit sphere, complete map, complete curve and centred arrow refuted as findings"},
 {"property": "C90", "status": "proved", "theorems": ["c90_blind", "c90_step", "c90_run", "c90_together", "c90_others_irrelevant", "c90_solver_refuted"], "note": "no new model; every layer has its own random generator as in the code; strip junctions can fail in the resistance even if all layers run; the statement without the hypothesis on the solver is refuted as a finding"},
 {"property": "C91", "status": "proved", "theorems": ["c91_domains", "c91_answers", "c91_independent", "c91_proportions", "c91_bounded", "c91_zero_area"], "note": "real arithmetic: the float16 storage of the curves and the progress bar are not modelled; the form is a record of the values read from the session"},
 {"property": "C92", "status": "proved", "theorems": ["c92_stack_built", "c92_built_iff", "c92_motion", "c92_pimm", "c92_pimm_answers", "c92_short_time", "c92_pimm_shape", "c92_magnetisation", "c92_vsd", "c92_frequencies", "c92_vsd_requirements", "c92_vsd_answers"], "note": "real arithmetic; the session state is a record; spinners, progress bars and figures are not modelled; the normal draws of numpy and the Butterworth coefficients are parameters; the answer theorems assume draws that are nonzero and below 10^5, and filter coefficients with a nonzero leading denominator"},
 {"property": "C93", "status": "proved", "theorems": ["c93_trajectory_error", "c93_final_error", "c93_log_error", "c93_converges", "c93_solution_unit", "c93_tame_regular", "c93_smooth_drivers", "c93_trapezoid_driver", "c93_gaussian_driver", "c93_step_driver"], "note": "real arithmetic (no rounding); the existence of a solution is a hypothesis, not proved; the bound is first order in dt for all solvers"},
 {"property": "C94", "status": "proved", "theorems": ["c94_trajectory", "c94_angle", "c94_solution", "c94_solution_angle", "c94_gain_below", "c94_aligns", "c94_aligned_limit", "c94_gain_above", "c94_leaves", "c94_fourth_order", "c94_run", "c94_bare"], "note": "real arithmetic (no rounding)"},
 {"property": "C95", "status": "proved", "theorems": ["c95_conserved_exactly", "c95_conserved_refuted", "c95_step", "c95_drift", "c95_limit", "c95_first_order", "c95_run", "c95_held"], "note": "conservation refuted for the default solver; the exact recurrence, drift, limit and order are proved; real arithmetic (no rounding)"},
 {"property": "C96", "status": "proved", "theorems": ["c96_loads", "c96_called", "c96_type_error", "c96_keyword_order", "c96_keyword_names", "c96_documented", "c96_bound", "c96_faithful", "c96_positional", "c96_signatures", "c96_junction", "c96_keywords_refuted", "c96_layer_temperature_refuted", "c96_run_persist_refuted", "c96_sot_damping_refuted", "c96_group_write_frequency_refuted", "c96_sine_amplitude_refuted", "c96_group_log_refuted", "c96_vector_axial_refuted", "c96_lists_are_not_vectors", "c96_vector_items", "c96_vector_iteration_refuted", "c96_module_names", "c96_none_is_not_an_axis_refuted"], "note": "refuted for the functions in departing_names, for which the signatures actually served are proved; the dispatcher models pybind11 as these bindings use it (Python values listed in M_Bind.v)"},
 {"property": "C97", "status": "proved", "theorems": ["c97_solution", "c97_solution_limit", "c97_solution_opposite", "c97_step", "c97_cosine", "c97_coordinates", "c97_approaches", "c97_rate", "c97_not_faster", "c97_limit", "c97_small_damping_refuted", "c97_large_step_refuted", "c97_run", "c97_free"], "note": "relaxation proved with explicit rates for damping at least the fifth power of the step; refuted for much smaller damping; real arithmetic (no rounding)"},
 {"property": "C98", "status": "proved", "theorems": ["c98_rate", "c98_never_rises", "c98_conserved", "c98_rest", "c98_simulation", "c98_reciprocal", "c98_dipole_refuted", "c98_dipole_simulated_refuted"], "note": "energy balance of arbitrary stacks and limit of simulations proved in real arithmetic; existence of solutions is C99; magnetostatic energy refuted for different Ms"},
 {"property": "C99", "status": "proved", "theorems": ["c99_exists", "c99_unique", "c99_exists_iff", "c99_converges", "c99_agree", "c99_energy"], "note": "existence and uniqueness by Picard iteration in real arithmetic; drivers with jumps (pulse, step) excluded, as in C93"},
 {"property": "C100", "status": "proved", "theorems": ["c100_global", "c100_settles", "c100_soon", "c100_rest_iff", "c100_simulation"], "note": "relaxation in real arithmetic; no statement about which rest state is reached; stacks with dipolar coupling between layers of different magnetisation are not conservative (C98)"},
 {"property": "C101", "status": "proved", "theorems": ["c101_frequencies", "c101_larger", "c101_ratio", "c101_same_refuted"], "note": "eigenvalue routine is an argument assumed to list the eigenvalues; equilibria at which all layers have the same softened sine ratio (for example all in the plane); a root is a frequency at which the matrix annihilates nonzero amplitudes"},
 {"property": "C102", "status": "proved", "theorems": ["c102_table", "c102_functional", "c102_matrix", "c102_roots", "c102_one_layer", "c102_missing", "c102_order_refuted", "c102_value_refuted"], "note": "sympy.solve is not modelled: the theorems compare the matrices whose determinants are solved; simplification by sympy enters as a sound predicate for expressions reduced to the number 0"},
 {"property": "C103", "status": "proved", "theorems": ["c103_step", "c103_sharp", "c103_run", "c103_log", "c103_energies_irrelevant"], "note": "the random numbers of a layer are those of its own stream in the model; two stacks are compared when both get the same solver"},
 {"property": "C104", "status": "proved", "theorems": ["c104_time", "c104_continue", "c104_log", "c104_splits", "c104_refuted"], "note": "layers with coloured noise are excluded since runSimulation rebuilds their buffers"},
 {"property": "C105", "status": "proved", "theorems": ["c105_flip", "c105_built", "c105_bilayer", "c105_coupling", "c105_resistance", "c105_step", "c105_run", "c105_log"], "note": "the random numbers of a layer are those of its own stream in the model; sums are over the reals, where the order of the two neighbour terms does not matter; whole runs exclude the strip resistance"},
 {"property": "C106", "status": "proved", "theorems": ["c106_error", "c106_fit", "c106_best", "c106_count", "c106_progress", "c106_percent", "c106_page", "c106_no_file", "c106_written", "c106_held_refuted", "c106_nothing", "c106_failed_refuted", "c106_interrupted_refuted"], "note": "HEBO itself is external: it is modelled as any function of the search space and of the finite errors it was told, its best point as the first with the least error and an exception when it was told nothing; interruptions arrive between rounds; the arithmetic is over the reals"},
 {"property": "C107", "status": "proved", "theorems": ["c107_rotation", "c107_tensor", "c107_film", "c107_constant", "c107_axial", "c107_derivative", "c107_step", "c107_run", "c107_both", "c107_log", "c107_resistance", "c107_half_turn", "c107_strip_refuted"], "note": "numbers are reals, not doubles; coloured noise is excluded because its axes are fixed; so are simulations that log strip resistances, whose readings are compared for half a turn only (c107_half_turn, c107_strip_refuted); the thermal random numbers of the turned stack are assumed to be the turned ones, the statement is about motions, not about their distribution"},
 {"property": "C108", "status": "proved", "theorems": ["c108_driver", "c108_axial", "c108_derivative", "c108_step", "c108_run", "c108_strip", "c108_both", "c108_log", "c108_time", "c108_resistance"], "note": "numbers are reals, not doubles; coloured noise is excluded; simulations that log strip resistances are covered in one direction by c108_strip"},
 {"property": "C109", "status": "proved", "theorems": ["c109_axis", "c109_fields", "c109_thickness", "c109_one", "c109_step", "c109_run", "c109_strip", "c109_both", "c109_log", "c109_resistance", "c109_static_refuted"], "note": "numbers are reals, not doubles; simulations that log strip resistances are covered in one direction by c109_strip; the energies logged may differ and are not compared; the cell volume, which the constructor computes from the thickness, is kept in c109_thickness"}
]}
