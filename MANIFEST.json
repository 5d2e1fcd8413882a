{
 "claims": [
  {
   "property": "C01",
   "status": "proved",
   "theorems": [
    "C01_set_value_roundtrip"
   ],
   "note": ""
  },
  {
   "property": "C02",
   "status": "proved",
   "theorems": [
    "C02_raises_exactly_out_of_limits",
    "C02_raise_leaves_unchanged",
    "C02_history_keeps_limits"
   ],
   "note": ""
  },
  {
   "property": "C03",
   "status": "proved",
   "theorems": [
    "C03_set_opt_value_in_limits",
    "C03_fold_unique",
    "C03_identity_inside"
   ],
   "note": ""
  },
  {
   "property": "C04",
   "status": "proved",
   "theorems": [
    "C04_dict_roundtrip"
   ],
   "note": ""
  },
  {
   "property": "C05",
   "status": "proved",
   "theorems": [
    "C05_extend_never_fails"
   ],
   "note": ""
  },
  {
   "property": "C06",
   "status": "proved",
   "theorems": [
    "C06_arithmetic",
    "C06_inplace_add",
    "C06_arithmetic_pi_units_refuted"
   ],
   "note": ""
  },
  {
   "property": "C07",
   "status": "proved",
   "theorems": [
    "C07_default_limits_admit_value",
    "C07_explicit_limits_kept",
    "C07_swapped_limits_accepted_refuted"
   ],
   "note": ""
  },
  {
   "property": "C08",
   "status": "proved",
   "theorems": [
    "C08_set_then_get",
    "C08_accepts_exactly_fitting_vectors"
   ],
   "note": ""
  },
  {
   "property": "C09",
   "status": "proved",
   "theorems": [
    "C09_touches_nothing_else",
    "C09_scaled_touches_nothing_else"
   ],
   "note": ""
  },
  {
   "property": "C10",
   "status": "proved",
   "theorems": [
    "C10_failing_update_is_prefix",
    "C10_set_parameters_atomic_refuted"
   ],
   "note": ""
  },
  {
   "property": "C11",
   "status": "proved",
   "theorems": [
    "C11_scaled_set_then_get",
    "C11_scaled_get_then_set",
    "C11_explicit_map_with_model_parameters_refuted"
   ],
   "note": ""
  },
  {
   "property": "C12",
   "status": "proved",
   "theorems": [
    "C12_index_to_name",
    "C12_name_owns_the_slot",
    "C12_index_beyond_the_end"
   ],
   "note": ""
  },
  {
   "property": "C13",
   "status": "proved",
   "theorems": [
    "C13_set_parameters_refreshes",
    "C13_scaled_setter_refreshes",
    "C13_refused_map_disables_refresh_refuted"
   ],
   "note": ""
  },
  {
   "property": "C14",
   "status": "proved",
   "theorems": [
    "C14_partition",
    "C14_rejects_bad_maps"
   ],
   "note": ""
  },
  {
   "property": "C15",
   "status": "proved",
   "theorems": [
    "C15_stored_point_reloads",
    "C15_store_succeeds"
   ],
   "note": ""
  },
  {
   "property": "C16",
   "status": "proved",
   "theorems": [
    "C16_unknown_identifier_refused",
    "C16_accepted_map_is_stored",
    "C16_mismatched_limits_accepted_refuted"
   ],
   "note": ""
  },
  {
   "property": "C17",
   "status": "proved",
   "theorems": [
    "C17_order_is_topological"
   ],
   "note": ""
  },
  {
   "property": "C18",
   "status": "proved",
   "theorems": [
    "C18_cyclic_chains_rejected",
    "C18_ordering_succeeds_iff_acyclic",
    "C18_double_source_refuted"
   ],
   "note": ""
  },
  {
   "property": "C19",
   "status": "proved",
   "theorems": [
    "C19_each_device_once",
    "C19_generate_signals_is_dataflow",
    "C19_fan_out_order_dependent_refuted"
   ],
   "note": ""
  },
  {
   "property": "C20",
   "status": "proved",
   "theorems": [
    "C20_accepted_chains_balance",
    "C20_balanced_acyclic_chains_accepted"
   ],
   "note": ""
  },
  {
   "property": "C21",
   "status": "proved",
   "theorems": [
    "C21_folded_product",
    "C21_stack_mismatch_refuted"
   ],
   "note": ""
  },
  {
   "property": "C22",
   "status": "proved",
   "theorems": [
    "C22_left_right_products",
    "C22_concatenation",
    "C22_empty_product_refused"
   ],
   "note": ""
  },
  {
   "property": "C23",
   "status": "proved",
   "theorems": [
    "C23_batching",
    "C23_batch_size_irrelevant",
    "C23_batching_hamiltonian",
    "C23_lindblad_without_controls_refuted"
   ],
   "note": ""
  },
  {
   "property": "C24",
   "status": "proved",
   "theorems": [
    "C24_sequence_is_time_ordered_product",
    "C24_composition",
    "C24_unknown_gate_raises",
    "C24_empty_table_refused"
   ],
   "note": ""
  },
  {
   "property": "C25",
   "status": "proved",
   "theorems": [
    "C25_tf_expm_error",
    "C25_tf_expm_converges",
    "C25_tf_expm_dynamic_error",
    "C25_dynamic_accuracy_refuted",
    "C25_tf_expm_is_taylor",
    "C25_single_term_refuted",
    "C25_tf_expm_dynamic_is_taylor",
    "C25_tf_expm_dynamic_terminates"
   ],
   "note": ""
  },
  {
   "property": "C26",
   "status": "proved",
   "theorems": [
    "C26_populations_of_sequences",
    "C26_state_evolution",
    "C26_split_sequence",
    "C26_sequences_independent"
   ],
   "note": ""
  },
  {
   "property": "C27",
   "status": "proved",
   "theorems": [
    "C27_index_is_kronecker_position",
    "C27_labels_enumerate_every_state_once",
    "C27_unknown_state_refused",
    "C27_indeces_pointwise"
   ],
   "note": ""
  },
  {
   "property": "C28",
   "status": "proved",
   "theorems": [
    "C28_embedded_operator",
    "C28_bad_index_refused",
    "C28_embedding_algebra",
    "C28_different_subsystems_commute"
   ],
   "note": ""
  },
  {
   "property": "C29",
   "status": "proved",
   "theorems": [
    "C29_annihilator_lowers",
    "C29_number_operator",
    "C29_commutator",
    "C29_different_subsystems_commute"
   ],
   "note": ""
  },
  {
   "property": "C30",
   "status": "proved",
   "theorems": [
    "C30_embedded_gate",
    "C30_embedding_algebra",
    "C30_embedded_unitary"
   ],
   "note": ""
  },
  {
   "property": "C31",
   "status": "proved",
   "theorems": [
    "C31_cut_keeps_low_excitations",
    "C31_blowup_places_elements",
    "C31_cut_after_blowup"
   ],
   "note": ""
  },
  {
   "property": "C32",
   "status": "proved",
   "theorems": [
    "C32_projection_keeps_computational_elements",
    "C32_superoperator_projection"
   ],
   "note": ""
  },
  {
   "property": "C33",
   "status": "proved",
   "theorems": [
    "C33_frame_rotation_phases",
    "C33_frame_rotation_unitary",
    "C33_composition",
    "C33_defined_for_known_lines"
   ],
   "note": ""
  },
  {
   "property": "C34",
   "status": "proved",
   "theorems": [
    "C34_sequences_invert",
    "C34_sequences_invert_on_register",
    "C34_zero_length_refused"
   ],
   "note": ""
  },
  {
   "property": "C35",
   "status": "proved",
   "theorems": [
    "C35_decompositions",
    "C35_pairwise_different",
    "C35_closed_under_products",
    "C35_inverses"
   ],
   "note": ""
  },
  {
   "property": "C36",
   "status": "proved",
   "theorems": [
    "C36_tabulated_gates_unitary",
    "C36_joined_names_unitary",
    "C36_ideal_gate_on_register",
    "C36_unknown_names_refuted"
   ],
   "note": ""
  },
  {
   "property": "C37",
   "status": "proved",
   "theorems": [
    "C37_lindblad_traceless",
    "C37_lindblad_hermitian",
    "C37_von_neumann"
   ],
   "note": ""
  },
  {
   "property": "C38",
   "status": "proved",
   "theorems": [
    "C38_trace_preserved",
    "C38_hermitian_preserved",
    "C38_final_state_agrees"
   ],
   "note": ""
  },
  {
   "property": "C39",
   "status": "proved",
   "theorems": [
    "C39_generator_is_lindblad",
    "C39_code_paths_agree",
    "C39_evolution_keeps_trace",
    "C39_evolution_keeps_hermiticity",
    "C39_closed_system"
   ],
   "note": ""
  },
  {
   "property": "C40",
   "status": "proved",
   "theorems": [
    "C40_super_conjugates",
    "C40_super_homomorphism",
    "C40_left_right",
    "C40_column_stacking_conjugates",
    "C40_dm_vec_round_trip",
    "C40_column_stacking_refuted",
    "C40_state_to_dm_refuted",
    "C40_state_to_dm_real"
   ],
   "note": ""
  },
  {
   "property": "C41",
   "status": "proved",
   "theorems": [
    "C41_channel_is_parity_mixture",
    "C41_populations_and_trace",
    "C41_coherences",
    "C41_zero_strength_is_identity",
    "C41_raises_outside_range"
   ],
   "note": ""
  },
  {
   "property": "C42",
   "status": "proved",
   "theorems": [
    "C42_rk4_is_taylor_4",
    "C42_rk38_is_taylor_4",
    "C42_rk5_step",
    "C42_rk5_order_five_refuted",
    "C42_tsit5_step",
    "C42_steps_are_linear",
    "C42_rk4_propagator",
    "C42_rk4_partials_transposed_refuted"
   ],
   "note": ""
  },
  {
   "property": "C43",
   "status": "proved",
   "theorems": [
    "C43_sampling_aligned",
    "C43_rk4_unitary_last_slice_refuted"
   ],
   "note": ""
  },
  {
   "property": "C44",
   "status": "proved",
   "theorems": [
    "C44_single_mode_hermitian",
    "C44_couplings_hermitian",
    "C44_control_sum_hermitian",
    "C44_control_sum_entries",
    "C44_duffing_energies"
   ],
   "note": ""
  },
  {
   "property": "C45",
   "status": "proved",
   "theorems": [
    "C45_range_and_zero",
    "C45_zero_iff_equal_up_to_phase",
    "C45_symmetric_and_phase_invariant",
    "C45_empty_index_refuted"
   ],
   "note": ""
  },
  {
   "property": "C46",
   "status": "proved",
   "theorems": [
    "C46_value",
    "C46_range_and_zero",
    "C46_relation_to_unitary_infid",
    "C46_shapes"
   ],
   "note": ""
  },
  {
   "property": "C47",
   "status": "proved",
   "theorems": [
    "C47_range_and_zero"
   ],
   "note": ""
  },
  {
   "property": "C48",
   "status": "proved",
   "theorems": [
    "C48_sets_are_means",
    "C48_mean_between_extremes",
    "C48_order_irrelevant",
    "C48_set_in_range"
   ],
   "note": ""
  },
  {
   "property": "C49",
   "status": "proved",
   "theorems": [
    "C49_pure_states",
    "C49_density_vector",
    "C49_superoperator_populations",
    "C49_density_total",
    "C49_expect_oper",
    "C49_expect_oper_real_state",
    "C49_expect_oper_refuted"
   ],
   "note": ""
  },
  {
   "property": "C50",
   "status": "proved",
   "theorems": [
    "C50_value",
    "C50_shape_mismatch",
    "C50_conserves_total",
    "C50_nonnegative",
    "C50_perfect_readout",
    "C50_perfect_qubits_identity"
   ],
   "note": ""
  },
  {
   "property": "C51",
   "status": "proved",
   "theorems": [
    "C51_thermal_state",
    "C51_populations_ordered",
    "C51_zero_temperature"
   ],
   "note": ""
  },
  {
   "property": "C52",
   "status": "proved",
   "theorems": [
    "C52_labels",
    "C52_all_labels_give_total",
    "C52_unknown_label",
    "C52_no_labels"
   ],
   "note": ""
  },
  {
   "property": "C53",
   "status": "proved",
   "theorems": [
    "C53_all_and_prefix",
    "C53_suffix",
    "C53_suffix_zero_refuted",
    "C53_even",
    "C53_even_errors",
    "C53_random",
    "C53_random_reaches_every_point",
    "C53_high_std",
    "C53_even_fid"
   ],
   "note": ""
  },
  {
   "property": "C54",
   "status": "proved",
   "theorems": [
    "C54_partition",
    "C54_random_refuted"
   ],
   "note": ""
  },
  {
   "property": "C55",
   "status": "proved",
   "theorems": [
    "C55_distances",
    "C55_defined",
    "C55_mean_at_most_rms",
    "C55_std_of_diffs_refuted",
    "C55_gaussian",
    "C55_likelihood",
    "C55_combined_between",
    "C55_gradient"
   ],
   "note": ""
  },
  {
   "property": "C56",
   "status": "proved",
   "theorems": [
    "C56_best_point",
    "C56_after_the_run",
    "C56_nothing_below_sentinel",
    "C56_unfolded_log_refuted"
   ],
   "note": ""
  },
  {
   "property": "C57",
   "status": "proved",
   "theorems": [
    "C57_lookup",
    "C57_collision_refuted"
   ],
   "note": ""
  },
  {
   "property": "C58",
   "status": "proved",
   "theorems": [
    "C58_linspace",
    "C58_grid",
    "C58_sweep",
    "C58_empty_probe_list_refuted"
   ],
   "note": ""
  },
  {
   "property": "C59",
   "status": "proved",
   "theorems": [
    "C59_stops_exactly",
    "C59_sigma_threshold_refuted",
    "C59_combined_options"
   ],
   "note": ""
  },
  {
   "property": "C60",
   "status": "proved",
   "theorems": [
    "C60_window",
    "C60_underflow",
    "C60_outside_slot",
    "C60_last_thousandth_refuted"
   ],
   "note": ""
  },
  {
   "property": "C61",
   "status": "proved",
   "theorems": [
    "C61_timings",
    "C61_channel",
    "C61_order",
    "C61_double_start_refuted",
    "C61_keys_distinct",
    "C61_key_collision_refuted",
    "C61_cycle_refuted",
    "C61_stale_memo_refuted",
    "C61_full_length",
    "C61_order_dependence_refuted"
   ],
   "note": ""
  },
  {
   "property": "C62",
   "status": "proved",
   "theorems": [
    "C62_auto_adjust",
    "C62_divergence_refuted"
   ],
   "note": ""
  },
  {
   "property": "C63",
   "status": "proved",
   "theorems": [
    "C63_cosine",
    "C63_gaussian_nonorm",
    "C63_gaussian_sigma",
    "C63_gaussian",
    "C63_drag_sigma",
    "C63_flattop",
    "C63_flattop_risefall",
    "C63_flattop_cut_center",
    "C63_flattop_cut",
    "C63_trapezoid",
    "C63_trapezoid_overlap_refuted",
    "C63_flattop_variant",
    "C63_pwc",
    "C63_fourier",
    "C63_fourier_harmonics",
    "C63_cosine_flattop",
    "C63_cosine_flattop_refuted"
   ],
   "note": ""
  },
  {
   "property": "C64",
   "status": "proved",
   "theorems": [
    "C64_drag_der",
    "C64_gaussian_der_sign_refuted",
    "C64_drag_envelope"
   ],
   "note": ""
  },
  {
   "property": "C65",
   "status": "proved",
   "theorems": [
    "C65_centres",
    "C65_edges",
    "C65_general",
    "C65_too_short",
    "C65_step_refuted"
   ],
   "note": ""
  },
  {
   "property": "C66",
   "status": "proved",
   "theorems": [
    "C66_mixed",
    "C66_cosine_form",
    "C66_bounded",
    "C66_linear",
    "C66_stale_lo_refuted",
    "C66_last_carrier_refuted"
   ],
   "note": ""
  },
  {
   "property": "C67",
   "status": "proved",
   "theorems": [
    "C67_convolution",
    "C67_impulse",
    "C67_causal",
    "C67_delay",
    "C67_bilinear",
    "C67_legacy_late_refuted"
   ],
   "note": ""
  },
  {
   "property": "C68",
   "status": "proved",
   "theorems": [
    "C68_step",
    "C68_linear_causal",
    "C68_filters",
    "C68_start_time_refuted"
   ],
   "note": ""
  },
  {
   "property": "C69",
   "status": "proved",
   "theorems": [
    "C69_factor",
    "C69_flux",
    "C69_coupling",
    "C69_coupling_sign_refuted",
    "C69_linear_refuted",
    "C69_linear"
   ],
   "note": ""
  },
  {
   "property": "C70",
   "status": "proved",
   "theorems": [
    "C70_net_zero",
    "C70_base_length",
    "C70_arity_refuted"
   ],
   "note": ""
  },
  {
   "property": "C71",
   "status": "proved",
   "theorems": [
    "C71_exact",
    "C71_roundtrip",
    "C71_plain",
    "C71_defaults",
    "C71_valid",
    "C71_stable",
    "C71_init",
    "C71_add_component",
    "C71_parameter_map",
    "C71_in_memory_refuted",
    "C71_lost_refuted",
    "C71_start_refuted"
   ],
   "note": ""
  },
  {
   "property": "C72",
   "status": "proved",
   "theorems": [
    "C72_device",
    "C72_generator",
    "C72_model",
    "C72_device_new",
    "C72_keyword_refuted",
    "C72_classes_refuted",
    "C72_attributes_refuted",
    "C72_model_refuted"
   ],
   "note": ""
  },
  {
   "property": "C73",
   "status": "proved",
   "theorems": [
    "C73_flatten",
    "C73_idempotent"
   ],
   "note": ""
  },
  {
   "property": "C74",
   "status": "proved",
   "theorems": [
    "C74_labels",
    "C74_bitstring",
    "C74_counts",
    "C74_shot_total",
    "C74_total_refuted",
    "C74_flip_refuted",
    "C74_multilevel_refuted",
    "C74_unequal_dims_refuted"
   ],
   "note": ""
  },
  {
   "property": "C75",
   "status": "proved",
   "theorems": [
    "C75_statevector",
    "C75_statevector_complete",
    "C75_sanitize",
    "C75_measurements",
    "C75_barriers_neutral",
    "C75_measure_only_refuted",
    "C75_unknown_gate",
    "C75_param_update"
   ],
   "note": ""
  },
  {
   "property": "C76",
   "status": "proved",
   "theorems": [
    "C76_cshunt",
    "C76_cshunt_all_orders",
    "C76_high_order_signal_refuted",
    "C76_fluxonium"
   ],
   "note": ""
  },
  {
   "property": "C77",
   "status": "proved",
   "theorems": [
    "C77_exact",
    "C77_outside",
    "C77_sign_refuted"
   ],
   "note": ""
  },
  {
   "property": "C78",
   "status": "proved",
   "theorems": [
    "C78_permutation",
    "C78_transform",
    "C78_overly_dressed",
    "C78_unordered",
    "C78_imaginary_refuted",
    "C78_fallback_refuted"
   ],
   "note": ""
  },
  {
   "property": "C79",
   "status": "proved",
   "theorems": [
    "C79_roundtrip",
    "C79_exact",
    "C79_marker_refuted"
   ],
   "note": ""
  },
  {
   "property": "C80",
   "status": "proved",
   "theorems": [
    "C80_frame_rotation",
    "C80_unknown_gate_error",
    "C80_first_error",
    "C80_selected_gates",
    "C80_failure_keeps_propagators",
    "C80_unknown_gate_fails",
    "C80_sequences",
    "C80_order_irrelevant",
    "C80_earlier_gates_refuted"
   ],
   "note": ""
  },
  {
   "property": "C81",
   "status": "proved",
   "theorems": [
    "C81_operators",
    "C81_dressed_drift",
    "C81_propagation",
    "C81_qubit_frequencies"
   ],
   "note": ""
  },
  {
   "property": "C82",
   "status": "proved",
   "theorems": [
    "C82_uncontrolled_slices",
    "C82_different_lengths",
    "C82_different_lengths_controlled",
    "C82_time_slices",
    "C82_closed_unitary",
    "C82_open_density",
    "C82_experiment_unitary",
    "C82_experiment_density",
    "C82_cut_block_unitary",
    "C82_cut_unitary_refuted",
    "C82_cut_controlled_refuted",
    "C82_dephasing_refuted"
   ],
   "note": ""
  },
  {
   "property": "C83",
   "status": "proved",
   "theorems": [
    "C83_averages_and_restores",
    "C83_succeeds",
    "C83_failure_not_restored_refuted",
    "C83_optimised_noise_refuted",
    "C83_group_overwritten_refuted"
   ],
   "note": ""
  },
  {
   "property": "C84",
   "status": "proved",
   "theorems": [
    "C84_exponential",
    "C84_unitary",
    "C84_additive",
    "C84_gates"
   ],
   "note": ""
  },
  {
   "property": "C85",
   "status": "proved",
   "theorems": [
    "C85_structure",
    "C85_flip",
    "C85_odd_echo_refuted",
    "C85_wait_name_refuted"
   ],
   "note": ""
  },
  {
   "property": "C86",
   "status": "proved",
   "theorems": [
    "C86_curve",
    "C86_monotone",
    "C86_junction_ratio",
    "C86_frequency",
    "C86_device_agrees",
    "C86_expanded_leading_term",
    "C86_expanded_is_cosine_series",
    "C86_positive_refuted"
   ],
   "note": ""
  },
  {
   "property": "C87",
   "status": "proved",
   "theorems": [
    "C87_hold",
    "C87_order"
   ],
   "note": ""
  },
  {
   "property": "C88",
   "status": "proved",
   "theorems": [
    "C88_mixing",
    "C88_identity",
    "C88_undriven_channel_refuted"
   ],
   "note": ""
  },
  {
   "property": "C89",
   "status": "proved",
   "theorems": [
    "C89_response_fft",
    "C89_response",
    "C89_grid_mismatch_refuted"
   ],
   "note": ""
  },
  {
   "property": "C90",
   "status": "proved",
   "theorems": [
    "C90_additive",
    "C90_offset_times_refuted"
   ],
   "note": ""
  },
  {
   "property": "C91",
   "status": "proved",
   "theorems": [
    "C91_sequences",
    "C91_virtual_z",
    "C91_vz_populations",
    "C91_vz_additive",
    "C91_vz_local_refuted",
    "C91_vz_open_refuted"
   ],
   "note": ""
  },
  {
   "property": "C92",
   "status": "proved",
   "theorems": [
    "C92_keys_injective",
    "C92_bracket_names_refuted"
   ],
   "note": ""
  },
  {
   "property": "C93",
   "status": "proved",
   "theorems": [
    "C93_qubit_levels",
    "C93_transmon_levels",
    "C93_snail_levels",
    "C93_hermitian",
    "C93_transform_is_similarity",
    "C93_requirements",
    "C93_cos_qubit_hermitian_refuted"
   ],
   "note": ""
  },
  {
   "property": "C94",
   "status": "proved",
   "theorems": [
    "C94_relaxation",
    "C94_needs_times",
    "C94_transmon_relaxation_refuted",
    "C94_dephasing",
    "C94_thermal_rates",
    "C94_thermal_equilibrium_refuted",
    "C94_independent_processes_refuted"
   ],
   "note": ""
  },
  {
   "property": "C95",
   "status": "proved",
   "theorems": [
    "C95_hamiltonian",
    "C95_refused",
    "C95_drives",
    "C95_branches_agree"
   ],
   "note": ""
  },
  {
   "property": "C96",
   "status": "proved",
   "theorems": [
    "C96_pauli_basis_columns",
    "C96_pauli_basis_orthogonal",
    "C96_chi_of_unitary_process",
    "C96_chi_diagonal"
   ],
   "note": ""
  },
  {
   "property": "C97",
   "status": "proved",
   "theorems": [
    "C97_experiment",
    "C97_method_refuted"
   ],
   "note": ""
  },
  {
   "property": "C98",
   "status": "proved",
   "theorems": [
    "C98_closed_kept",
    "C98_read_twice",
    "C98_default_ground",
    "C98_open_pure",
    "C98_open_mixed",
    "C98_complex_ket_refuted",
    "C98_wrong_size_refuted",
    "C98_switch_back_refuted",
    "C98_default_shape_refuted"
   ],
   "note": ""
  },
  {
   "property": "C99",
   "status": "proved",
   "theorems": [
    "C99_trajectory",
    "C99_times_two_gates",
    "C99_split",
    "C99_final_state",
    "C99_density",
    "C99_von_neumann_start",
    "C99_unknown_gate",
    "C99_times_three_gates_refuted",
    "C99_final_time_refuted",
    "C99_no_sequence_refuted",
    "C99_complex_ket_refuted"
   ],
   "note": ""
  },
  {
   "property": "C100",
   "status": "proved",
   "theorems": [
    "C100_default_method",
    "C100_unknown_method",
    "C100_selected_method",
    "C100_other_lengths",
    "C100_named_method_refuted"
   ],
   "note": ""
  },
  {
   "property": "C101",
   "status": "proved",
   "theorems": [
    "C101_slice",
    "C101_dU_of_t_lind",
    "C101_gate",
    "C101_experiment",
    "C101_populations",
    "C101_initial_state",
    "C101_population_functions",
    "C101_rk4_refuted"
   ],
   "note": ""
  },
  {
   "property": "C102",
   "status": "proved",
   "theorems": [
    "C102_registered",
    "C102_built_gates_register",
    "C102_get_parameter",
    "C102_writes_reach_owners",
    "C102_set_by_contents",
    "C102_update_parameters",
    "C102_config_keeps_others",
    "C102_mapped_gate",
    "C102_same_name_refuted",
    "C102_dash_refuted",
    "C102_mapto_key_refuted",
    "C102_mapto_ideal_refuted"
   ],
   "note": ""
  },
  {
   "property": "C103",
   "status": "proved",
   "theorems": [
    "C103_multinom_norm",
    "C103_multinom_norm_offset_refuted",
    "C103_binom_norm",
    "C103_binom_likelihood",
    "C103_multinom_likelihood",
    "C103_binom_normalised",
    "C103_median",
    "C103_median_ignores_outliers_refuted"
   ],
   "note": ""
  },
  {
   "property": "C104",
   "status": "proved",
   "theorems": [
    "C104_history_free",
    "C104_simulated_at",
    "C104_goal",
    "C104_repeatable",
    "C104_validation",
    "C104_perfect",
    "C104_validates_best_refuted",
    "C104_validation_without_data_refuted",
    "C104_different_maps_refuted"
   ],
   "note": ""
  },
  {
   "property": "C105",
   "status": "proved",
   "theorems": [
    "C105_estimate",
    "C105_error_of_rate",
    "C105_lengths",
    "C105_log_lengths",
    "C105_populations",
    "C105_perfect",
    "C105_leakage",
    "C105_orbit",
    "C105_gate_names_refuted",
    "C105_one_sequence_refuted",
    "C105_retry_refuted"
   ],
   "note": ""
  },
  {
   "property": "C106",
   "status": "proved",
   "theorems": [
    "C106_calibration",
    "C106_interrupted",
    "C106_succeeds",
    "C106_second_run_refuted"
   ],
   "note": ""
  },
  {
   "property": "C107",
   "status": "proved",
   "theorems": [
    "C107_sequence_value",
    "C107_sequence_bounds",
    "C107_sequence_order",
    "C107_subset_refuted",
    "C107_final_ket",
    "C107_final_errors",
    "C107_final_diagonal",
    "C107_density_refuted",
    "C107_population",
    "C107_lindbladian_refuted",
    "C107_epc_refuted",
    "C107_density_value",
    "C107_final_columns",
    "C107_population_errors",
    "C107_epc_evaluates"
   ],
   "note": ""
  },
  {
   "property": "C108",
   "status": "proved",
   "theorems": [
    "C108_compiled_run",
    "C108_changes_ignored_refuted",
    "C108_second_run_refuted",
    "C108_failed_first_call"
   ],
   "note": ""
  },
  {
   "property": "C109",
   "status": "proved",
   "theorems": [
    "C109_sweeps",
    "C109_leftover_refuted",
    "C109_best_file_refuted",
    "C109_init_point_refuted"
   ],
   "note": ""
  },
  {
   "property": "C110",
   "status": "proved",
   "theorems": [
    "C110_job",
    "C110_history",
    "C110_separate",
    "C110_statevector",
    "C110_first_statevector_refuted",
    "C110_failed_update_refuted",
    "C110_sticky_statevector_refuted",
    "C110_params_without_map_refuted"
   ],
   "note": ""
  },
  {
   "property": "C111",
   "status": "proved",
   "theorems": [
    "C111_hamiltonians",
    "C111_resolution_refuted",
    "C111_rk4_unitary",
    "C111_short_refuted",
    "C111_open_refuted",
    "C111_tf_propagation",
    "C111_uncontrolled",
    "C111_methods_refuted",
    "C111_default_enters"
   ],
   "note": ""
  },
  {
   "property": "C112",
   "status": "proved",
   "theorems": [
    "C112_same_run",
    "C112_gradient"
   ],
   "note": ""
  },
  {
   "property": "C113",
   "status": "proved",
   "theorems": [
    "C113_keywords",
    "C113_fidelity",
    "C113_goal",
    "C113_usable",
    "C113_usable_ode",
    "C113_callbacks",
    "C113_callbacks_refuted",
    "C113_unusable_refuted",
    "C113_mode",
    "C113_mode_reset_refuted",
    "C113_subspace",
    "C113_algorithm",
    "C113_oneplusone_refuted"
   ],
   "note": ""
  },
  {
   "property": "C114",
   "status": "proved",
   "theorems": [
    "C114_success",
    "C114_run_last",
    "C114_arguments",
    "C114_needed",
    "C114_type",
    "C114_quick_refuted",
    "C114_adjust_refuted",
    "C114_initial_refuted",
    "C114_confirm_refuted",
    "C114_labels_refuted"
   ],
   "note": ""
  },
  {
   "property": "C115",
   "status": "proved",
   "theorems": [
    "C115_pulse",
    "C115_accepted",
    "C115_experiment",
    "C115_paths",
    "C115_absolute_refuted",
    "C115_method_refuted",
    "C115_shared_line_refuted"
   ],
   "note": ""
  },
  {
   "property": "C116",
   "status": "proved",
   "theorems": [
    "C116_sgd",
    "C116_sgd_options",
    "C116_sgd_quadratic",
    "C116_sgd_converges",
    "C116_last_point_refuted",
    "C116_scan",
    "C116_scan_inside",
    "C116_scan_without_probes_refuted",
    "C116_scan_twice_refuted",
    "C116_scan_numbers_refuted",
    "C116_scan_bounds",
    "C116_gcmaes",
    "C116_gcmaes_is_cmaes",
    "C116_gcmaes_options"
   ],
   "note": ""
  },
  {
   "property": "C117",
   "status": "proved",
   "theorems": [
    "C117_own_directory",
    "C117_nothing_lost",
    "C117_recent",
    "C117_alone",
    "C117_named_recent_refuted",
    "C117_race_refuted",
    "C117_link_denied",
    "C117_inside",
    "C117_absolute_refuted",
    "C117_default"
   ],
   "note": ""
  },
  {
   "property": "C118",
   "status": "proved",
   "theorems": [
    "C118_written",
    "C118_running_minimum",
    "C118_open_loop_refuted",
    "C118_nan_refuted",
    "C118_array_refuted",
    "C118_errors",
    "C118_start",
    "C118_replace_logdir",
    "C118_stale_link_refuted",
    "C118_loggers_refuted"
   ],
   "note": ""
  },
  {
   "property": "C119",
   "status": "proved",
   "theorems": [
    "C119_table",
    "C119_names",
    "C119_watch_refuted",
    "C119_array_refuted",
    "C119_incomplete"
   ],
   "note": ""
  },
  {
   "property": "C120",
   "status": "proved",
   "theorems": [
    "C120_oscillator",
    "C120_negative",
    "C120_carriers",
    "C120_quiet",
    "C120_unit_circle",
    "C120_ignored_refuted",
    "C120_process",
    "C120_fresh_numbers",
    "C120_process_total",
    "C120_white_and_constant",
    "C120_pink",
    "C120_pink_levels",
    "C120_slow_refuted"
   ],
   "note": ""
  },
  {
   "property": "C121",
   "status": "proved",
   "theorems": [
    "C121_filter",
    "C121_taps",
    "C121_constant_refuted",
    "C121_short_refuted",
    "C121_rise_time_refuted",
    "C121_degenerate"
   ],
   "note": ""
  },
  {
   "property": "C122",
   "status": "proved",
   "theorems": [
    "C122_error_bound",
    "C122_population_error",
    "C122_convergence",
    "C122_constant"
   ],
   "note": ""
  },
  {
   "property": "C123",
   "status": "proved",
   "theorems": [
    "C123_error_bound",
    "C123_convergence",
    "C123_limit"
   ],
   "note": ""
  },
  {
   "property": "C124",
   "status": "proved",
   "theorems": [
    "C124_unitary_infid_lipschitz",
    "C124_average_infid_lipschitz",
    "C124_state_transfer_lipschitz",
    "C124_propagators_are_physical",
    "C124_goals_are_physical"
   ],
   "note": ""
  },
  {
   "property": "C125",
   "status": "proved",
   "theorems": [
    "C125_reversed_targets",
    "C125_circuits_with_reversed_targets",
    "C125_rotations",
    "C125_perfect_gates",
    "C125_rotation_circuits",
    "C125_symmetric_gates",
    "C125_symmetric_table",
    "C125_two_qubit_refuted",
    "C125_crxp_class"
   ],
   "note": ""
  },
  {
   "property": "C126",
   "status": "proved",
   "theorems": [
    "C126_slepian_symmetric",
    "C126_slepian_outside",
    "C126_slepian_flat",
    "C126_slepian_peak",
    "C126_slepian_range",
    "C126_slepian_relative",
    "C126_slepian_negative_refuted",
    "C126_slepian_notch_refuted",
    "C126_slepian_fails",
    "C126_plateau",
    "C126_plateau_start_refuted",
    "C126_plateau_height_refuted",
    "C126_plateau_end",
    "C126_plateau_end_refuted",
    "C126_delta",
    "C126_delta_refuted",
    "C126_simple",
    "C126_flattop_1ns",
    "C126_real_envelopes_refuted"
   ],
   "note": ""
  },
  {
   "property": "C127",
   "status": "proved",
   "theorems": [
    "C127_sequences",
    "C127_tomography_complete",
    "C127_tomography_unitary",
    "C127_names_refuted"
   ],
   "note": ""
  },
  {
   "property": "C128",
   "status": "proved",
   "theorems": [
    "C128_relabelled",
    "C128_unordered",
    "C128_default",
    "C128_default_operators",
    "C128_propagation",
    "C128_stable",
    "C128_relabelling_refuted",
    "C128_phase_refuted",
    "C128_unchecked_refuted"
   ],
   "note": ""
  },
  {
   "property": "C129",
   "status": "proved",
   "theorems": [
    "C129_minimum",
    "C129_hamiltonian",
    "C129_methods",
    "C129_renewed",
    "C129_signal",
    "C129_transmon",
    "C129_stale",
    "C129_unnoticed",
    "C129_signal_anharmonicity",
    "C129_stale_refuted"
   ],
   "note": ""
  },
  {
   "property": "C130",
   "status": "proved",
   "theorems": [
    "C130_file_names",
    "C130_one",
    "C130_stored",
    "C130_default",
    "C130_kept",
    "C130_own_folder",
    "C130_disabled",
    "C130_not_enabled",
    "C130_compiled_refuted",
    "C130_rerun_refuted",
    "C130_collision_refuted",
    "C130_slash_name_refuted",
    "C130_slash_refuted",
    "C130_best_unitary_refuted"
   ],
   "note": ""
  },
  {
   "property": "C131",
   "status": "proved",
   "theorems": [
    "C131_number",
    "C131_readable",
    "C131_quantity",
    "C131_list",
    "C131_print",
    "C131_equivalents_refuted",
    "C131_hidden_refuted",
    "C131_sign_refuted"
   ],
   "note": ""
  },
  {
   "property": "C132",
   "status": "proved",
   "theorems": [
    "C132_root",
    "C132_expectation",
    "C132_real",
    "C132_mixture",
    "C132_picture",
    "C132_probability",
    "C132_complete",
    "C132_ket",
    "C132_pure",
    "C132_bounded",
    "C132_unique_root",
    "C132_mixed_pure",
    "C132_two_pure",
    "C132_self",
    "C132_invariant",
    "C132_amplitude_refuted"
   ],
   "note": ""
  },
  {
   "property": "C133",
   "status": "proved",
   "theorems": [
    "C133_named",
    "C133_refused",
    "C133_all",
    "C133_shared",
    "C133_separate",
    "C133_filters_refuted",
    "C133_only",
    "C133_several",
    "C133_same_name_refuted",
    "C133_options",
    "C133_options_missing"
   ],
   "note": ""
  },
  {
   "property": "C134",
   "status": "proved",
   "theorems": [
    "C134_settings",
    "C134_second_run_refuted",
    "C134_noiseless",
    "C134_noise",
    "C134_batch_noise_refuted",
    "C134_combined",
    "C134_combined_again",
    "C134_combined_again_refuted",
    "C134_foreign_refuted"
   ],
   "note": ""
  },
  {
   "property": "C135",
   "status": "proved",
   "theorems": [
    "C135_unusable",
    "C135_drift",
    "C135_step",
    "C135_twice",
    "C135_wrong_refuted",
    "C135_phase_refuted"
   ],
   "note": ""
  },
  {
   "property": "C136",
   "status": "proved",
   "theorems": [
    "C136_refused",
    "C136_empty_refuted",
    "C136_repair",
    "C136_refused_used_refuted"
   ],
   "note": ""
  },
  {
   "property": "C137",
   "status": "proved",
   "theorems": [
    "C137_no_limit",
    "C137_limited_hamiltonian",
    "C137_sparse_hamiltonian",
    "C137_last_limit_counts",
    "C137_sparse_without_limit_refuted",
    "C137_limit_taken_back_refuted",
    "C137_hamiltonians",
    "C137_limited_hamiltonians_refuted",
    "C137_sparse_hamiltonians_refuted"
   ],
   "note": ""
  },
  {
   "property": "C138",
   "status": "proved",
   "theorems": [
    "C138_independent",
    "C138_idle",
    "C138_no_crosstalk"
   ],
   "note": ""
  },
  {
   "property": "C139",
   "status": "proved",
   "theorems": [
    "C139_exact_limit",
    "C139_conserving_respects",
    "C139_conserving_hamiltonians",
    "C139_xx_refuted"
   ],
   "note": ""
  },
  {
   "property": "C140",
   "status": "proved",
   "theorems": [
    "C140_selection_rule",
    "C140_class_populations",
    "C140_diagonal",
    "C140_excitations"
   ],
   "note": ""
  },
  {
   "property": "C141",
   "status": "proved",
   "theorems": [
    "C141_one_after_the_other",
    "C141_backwards",
    "C141_offset"
   ],
   "note": ""
  },
  {
   "property": "C142",
   "status": "proved",
   "theorems": [
    "C142_relaxation",
    "C142_transmon_relaxation_refuted",
    "C142_dephasing"
   ],
   "note": ""
  },
  {
   "property": "C143",
   "status": "proved",
   "theorems": [
    "C143_gate",
    "C143_populations",
    "C143_complex_state_refuted"
   ],
   "note": ""
  },
  {
   "property": "C144",
   "status": "proved",
   "theorems": [
    "C144_estimate",
    "C144_unknown",
    "C144_phase_and_amplitude",
    "C144_bounds",
    "C144_log_shapes_refuted"
   ],
   "note": ""
  },
  {
   "property": "C145",
   "status": "proved",
   "theorems": [
    "C145_independent",
    "C145_no_crosstalk"
   ],
   "note": ""
  },
  {
   "property": "C146",
   "status": "proved",
   "theorems": [
    "C146_follows",
    "C146_closed",
    "C146_open",
    "C146_constructed",
    "C146_frame",
    "C146_history",
    "C146_before_update",
    "C146_failed_switch_refuted",
    "C146_resonator_refuted",
    "C146_switched_off_refuted"
   ],
   "note": ""
  },
  {
   "property": "C147",
   "status": "proved",
   "theorems": [
    "C147_gate",
    "C147_open",
    "C147_goals",
    "C147_populations"
   ],
   "note": ""
  },
  {
   "property": "C148",
   "status": "proved",
   "theorems": [
    "C148_exact",
    "C148_resolution",
    "C148_eigenstates",
    "C148_energy",
    "C148_idle"
   ],
   "note": ""
  }
 ]
}