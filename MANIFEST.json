{
 "claims": [
  {
   "property": "C01",
   "status": "proved",
   "theorems": [
    "C01_chunks_partition",
    "C01_closure_is_batch_sum",
    "C01_calculation_width_irrelevant",
    "C01_width_zero",
    "C01_mean_type_loss_refuted"
   ],
   "note": "The statement is proved as worded, including the defects of the code it names: each of those is itself a theorem (suffix _refuted), showing where the documented or expected behaviour fails."
  },
  {
   "property": "C02",
   "status": "proved",
   "theorems": [
    "C02_mse_epoch_loss",
    "C02_poisson_epoch_loss",
    "C02_unnormalized_total",
    "C02_normalization_frozen",
    "C02_leftover_count",
    "C02_setup_dataloader_feeds",
    "C02_interrupted_first_epoch_refuted"
   ],
   "note": "The statement is proved as worded, including the defects of the code it names: each of those is itself a theorem (suffix _refuted), showing where the documented or expected behaviour fails."
  },
  {
   "property": "C03",
   "status": "proved",
   "theorems": [
    "C03_history_sequential",
    "C03_history_threaded",
    "C03_epoch_effect"
   ],
   "note": ""
  },
  {
   "property": "C04",
   "status": "proved",
   "theorems": [
    "C04_consume",
    "C04_epoch_count",
    "C04_threaded_equals_sequential"
   ],
   "note": ""
  },
  {
   "property": "C05",
   "status": "proved",
   "theorems": [
    "C05_stop_is_graceful",
    "C05_threaded_next",
    "C05_interrupt_stops_worker",
    "C05_interrupt_delivered",
    "C05_interrupt_raised_after_worker_ended",
    "C05_baseexception_hangs",
    "C05_never_hangs_refuted",
    "C05_other_exception_stops_worker_refuted"
   ],
   "note": "The statement is proved as worded, including the defects of the code it names: each of those is itself a theorem (suffix _refuted), showing where the documented or expected behaviour fails."
  },
  {
   "property": "C06",
   "status": "proved",
   "theorems": [
    "C06_skip_threaded",
    "C06_skip_sequential_refuted"
   ],
   "note": "The statement is proved as worded, including the defects of the code it names: each of those is itself a theorem (suffix _refuted), showing where the documented or expected behaviour fails."
  },
  {
   "property": "C07",
   "status": "proved",
   "theorems": [
    "C07_adam_default_usable",
    "C07_sgd_reconstructor_default_usable",
    "C07_lbfgs_full_batch",
    "C07_sgd_optimize_default_refuted"
   ],
   "note": "The statement is proved as worded, including the defects of the code it names: each of those is itself a theorem (suffix _refuted), showing where the documented or expected behaviour fails."
  },
  {
   "property": "C08",
   "status": "proved",
   "theorems": [
    "C08_adam_unshuffled_in_order",
    "C08_adam_shuffled_drawn_order",
    "C08_custom_loader_used",
    "C08_sgd_shuffle_ignored_refuted"
   ],
   "note": "The statement is proved as worded, including the defects of the code it names: each of those is itself a theorem (suffix _refuted), showing where the documented or expected behaviour fails."
  },
  {
   "property": "C09",
   "status": "proved",
   "theorems": [
    "C09_lr_factors",
    "C09_lr_factors_from_construction",
    "C09_unused_reported",
    "C09_unused_no_effect"
   ],
   "note": ""
  },
  {
   "property": "C10",
   "status": "proved",
   "theorems": [
    "C10_epoch_visits_selection",
    "C10_shuffled_order",
    "C10_epoch_draws_afresh",
    "C10_loader_aligned"
   ],
   "note": ""
  },
  {
   "property": "C11",
   "status": "proved",
   "theorems": [
    "C11_jobs_compose",
    "C11_checkpoint_contents",
    "C11_unsaved_state_refuted",
    "C11_checkpoint_needs_use_checkpoints",
    "C11_save_checkpoint_frame"
   ],
   "note": "The statement is proved as worded, including the defects of the code it names: each of those is itself a theorem (suffix _refuted), showing where the documented or expected behaviour fails."
  },
  {
   "property": "C12",
   "status": "proved",
   "theorems": [
    "C12_optimizer_state_saved_refuted",
    "C12_optimizer_state_round_trip"
   ],
   "note": "The statement is proved as worded, including the defects of the code it names: each of those is itself a theorem (suffix _refuted), showing where the documented or expected behaviour fails."
  },
  {
   "property": "C13",
   "status": "proved",
   "theorems": [
    "C13_save_on_exit_normal",
    "C13_save_on_exit_exception",
    "C13_save_on_exception",
    "C13_failure_not_swallowed",
    "C13_same_exception_when_save_fails_refuted"
   ],
   "note": "The statement is proved as worded, including the defects of the code it names: each of those is itself a theorem (suffix _refuted), showing where the documented or expected behaviour fails."
  },
  {
   "property": "C14",
   "status": "proved",
   "theorems": [
    "C14_h5_round_trip",
    "C14_leaves_unchanged",
    "C14_conversions",
    "C14_conversions_inverse",
    "C14_results_restored",
    "C14_slash_key_refuted",
    "C14_unsupported_leaf",
    "C14_numpy_requires_grad",
    "C14_loading_other_results"
   ],
   "note": "The statement is proved as worded, including the defects of the code it names: each of those is itself a theorem (suffix _refuted), showing where the documented or expected behaviour fails."
  },
  {
   "property": "C15",
   "status": "proved",
   "theorems": [
    "C15_mask_round_trip",
    "C15_kept_values"
   ],
   "note": ""
  },
  {
   "property": "C16",
   "status": "proved",
   "theorems": [
    "C16_read_what_was_added",
    "C16_exact_values",
    "C16_dark_stack_mean",
    "C16_any_order_succeeds",
    "C16_layout",
    "C16_wavelength_from_energy",
    "C16_energy_consistent",
    "C16_basis_from_pixel_sizes",
    "C16_distance_from_corner",
    "C16_cut_zeros",
    "C16_dark_stack_values",
    "C16_axes_normalized",
    "C16_float32_precision"
   ],
   "note": ""
  },
  {
   "property": "C17",
   "status": "proved",
   "theorems": [
    "C17_round_trip",
    "C17_missing_wavelength_or_geometry_refuted"
   ],
   "note": "The statement is proved as worded, including the defects of the code it names: each of those is itself a theorem (suffix _refuted), showing where the documented or expected behaviour fails."
  },
  {
   "property": "C18",
   "status": "proved",
   "theorems": [
    "C18_metadata",
    "C18_title_becomes_date_refuted",
    "C18_unreadable_title_refuted"
   ],
   "note": "The statement is proved as worded, including the defects of the code it names: each of those is itself a theorem (suffix _refuted), showing where the documented or expected behaviour fails."
  },
  {
   "property": "C19",
   "status": "proved",
   "theorems": [
    "C19_ptycho_path",
    "C19_open_file",
    "C19_path_refuted",
    "C19_path_entry_refuted"
   ],
   "note": "The statement is proved as worded, including the defects of the code it names: each of those is itself a theorem (suffix _refuted), showing where the documented or expected behaviour fails."
  },
  {
   "property": "C20",
   "status": "proved",
   "theorems": [
    "C20_split_assignment",
    "C20_split_partitions",
    "C20_split_mismatch"
   ],
   "note": ""
  },
  {
   "property": "C21",
   "status": "proved",
   "theorems": [
    "C21_remove_keeps_others",
    "C21_remove_bad_length",
    "C21_crop_keeps_roi",
    "C21_crop_empty",
    "C21_crop_corner_order",
    "C21_inconsistent_partial_update_refuted"
   ],
   "note": "The statement is proved as worded, including the defects of the code it names: each of those is itself a theorem (suffix _refuted), showing where the documented or expected behaviour fails."
  },
  {
   "property": "C22",
   "status": "proved",
   "theorems": [
    "C22_pad_patterns",
    "C22_pad_argument_forms",
    "C22_pad_mask_background",
    "C22_pad_stays_usable",
    "C22_pad_breaks_qe_mask_refuted"
   ],
   "note": "The statement is proved as worded, including the defects of the code it names: each of those is itself a theorem (suffix _refuted), showing where the documented or expected behaviour fails."
  },
  {
   "property": "C23",
   "status": "proved",
   "theorems": [
    "C23_downsample",
    "C23_masked_values_irrelevant",
    "C23_counts_conserved",
    "C23_composition",
    "C23_composition_qe",
    "C23_composition_masked_refuted"
   ],
   "note": "The statement is proved as worded, including the defects of the code it names: each of those is itself a theorem (suffix _refuted), showing where the documented or expected behaviour fails."
  },
  {
   "property": "C24",
   "status": "proved",
   "theorems": [
    "C24_from_cxi_refuted",
    "C24_nan_pixels_masked",
    "C24_kept_pixels_are_measured"
   ],
   "note": "The statement is proved as worded, including the defects of the code it names: each of those is itself a theorem (suffix _refuted), showing where the documented or expected behaviour fails."
  },
  {
   "property": "C25",
   "status": "proved",
   "theorems": [
    "C25_is_centred_fourier_transform",
    "C25_inverse",
    "C25_unitary",
    "C25_linear"
   ],
   "note": ""
  },
  {
   "property": "C26",
   "status": "proved",
   "theorems": [
    "C26_linear",
    "C26_compose",
    "C26_energy",
    "C26_inverse_iff",
    "C26_round_trip_damps"
   ],
   "note": ""
  },
  {
   "property": "C27",
   "status": "proved",
   "theorems": [
    "C27_formula",
    "C27_modulus",
    "C27_bandlimit",
    "C27_group_law",
    "C27_opposite_and_zero",
    "C27_propagation",
    "C27_generalized_formula",
    "C27_generalized_plane_wave",
    "C27_generalized_evanescent",
    "C27_generalized_bounded",
    "C27_generalized_bounded_vector",
    "C27_generalized_amplifies_refuted"
   ],
   "note": "The statement is proved as worded, including the defects of the code it names: each of those is itself a theorem (suffix _refuted), showing where the documented or expected behaviour fails."
  },
  {
   "property": "C28",
   "status": "proved",
   "theorems": [
    "C28_intensity",
    "C28_interpolates",
    "C28_mean",
    "C28_modulus",
    "C28_odd_size_even_factor_refuted"
   ],
   "note": "The statement is proved as worded, including the defects of the code it names: each of those is itself a theorem (suffix _refuted), showing where the documented or expected behaviour fails."
  },
  {
   "property": "C29",
   "status": "proved",
   "theorems": [
    "C29_intensity",
    "C29_integer",
    "C29_additive",
    "C29_reversible",
    "C29_interpolation"
   ],
   "note": ""
  },
  {
   "property": "C30",
   "status": "proved",
   "theorems": [
    "C30_range",
    "C30_finds_shift",
    "C30_documented_direction_refuted"
   ],
   "note": "The statement is proved as worded, including the defects of the code it names: each of those is itself a theorem (suffix _refuted), showing where the documented or expected behaviour fails."
  },
  {
   "property": "C31",
   "status": "proved",
   "theorems": [
    "C31_is_convolution",
    "C31_identity"
   ],
   "note": ""
  },
  {
   "property": "C32",
   "status": "proved",
   "theorems": [
    "C32_bounded",
    "C32_square_border",
    "C32_border_refuted"
   ],
   "note": "The statement is proved as worded, including the defects of the code it names: each of those is itself a theorem (suffix _refuted), showing where the documented or expected behaviour fails."
  },
  {
   "property": "C33",
   "status": "proved",
   "theorems": [
    "C33_pixel_round_trip",
    "C33_translation_round_trip",
    "C33_projects_along_beam"
   ],
   "note": ""
  },
  {
   "property": "C34",
   "status": "proved",
   "theorems": [
    "C34_sample_point",
    "C34_sign"
   ],
   "note": ""
  },
  {
   "property": "C35",
   "status": "proved",
   "theorems": [
    "C35_dual",
    "C35_rectangular"
   ],
   "note": ""
  },
  {
   "property": "C36",
   "status": "proved",
   "theorems": [
    "C36_windows_inside",
    "C36_no_failure",
    "C36_object_shift_refuted",
    "C36_minimum"
   ],
   "note": "The statement is proved as worded, including the defects of the code it names: each of those is itself a theorem (suffix _refuted), showing where the documented or expected behaviour fails."
  },
  {
   "property": "C37",
   "status": "proved",
   "theorems": [
    "C37_integer_agree",
    "C37_round_nearest",
    "C37_linear_object_exact",
    "C37_linear_probe_exact",
    "C37_linear_bounded",
    "C37_sinc_power",
    "C37_sinc_shift_back",
    "C37_sinc_formula",
    "C37_sinc_case"
   ],
   "note": ""
  },
  {
   "property": "C38",
   "status": "proved",
   "theorems": [
    "C38_value",
    "C38_bounds",
    "C38_additive",
    "C38_single_mode",
    "C38_mode_mixing",
    "C38_conserves_power",
    "C38_background",
    "C38_quantum_efficiency",
    "C38_finite_pixels_shape_refuted",
    "C38_finite_pixels_square_shape"
   ],
   "note": "The statement is proved as worded, including the defects of the code it names: each of those is itself a theorem (suffix _refuted), showing where the documented or expected behaviour fails."
  },
  {
   "property": "C39",
   "status": "proved",
   "theorems": [
    "C39_sum_losses_are_pixel_sums",
    "C39_mean_losses",
    "C39_intensity_mse_zero",
    "C39_amplitude_mse_zero",
    "C39_masked_pixels_never_matter",
    "C39_losses_add",
    "C39_poisson_subtract_min"
   ],
   "note": ""
  },
  {
   "property": "C40",
   "status": "proved",
   "theorems": [
    "C40_perfect_agreement_zero",
    "C40_nonnegative_refuted",
    "C40_count_data_lower_bound",
    "C40_lower_bound"
   ],
   "note": "The statement is proved as worded, including the defects of the code it names: each of those is itself a theorem (suffix _refuted), showing where the documented or expected behaviour fails."
  },
  {
   "property": "C41",
   "status": "proved",
   "theorems": [
    "C41_orders",
    "C41_modes",
    "C41_refused",
    "C41_power_refuted"
   ],
   "note": "The statement is proved as worded, including the defects of the code it names: each of those is itself a theorem (suffix _refuted), showing where the documented or expected behaviour fails."
  },
  {
   "property": "C42",
   "status": "proved",
   "theorems": [
    "C42_library_exists",
    "C42_product_svd",
    "C42_same_coherence",
    "C42_same_intensity",
    "C42_mode_count",
    "C42_reexpressed_weights",
    "C42_unique_powers",
    "C42_unique_modes",
    "C42_tidy_1d",
    "C42_tidy_probes",
    "C42_tidy_defined",
    "C42_tidy_dependent_refuted"
   ],
   "note": "The statement is proved as worded, including the defects of the code it names: each of those is itself a theorem (suffix _refuted), showing where the documented or expected behaviour fails."
  },
  {
   "property": "C43",
   "status": "proved",
   "theorems": [
    "C43_standardize_exit_waves",
    "C43_standardize_patterns",
    "C43_standardize_intensity",
    "C43_standardize_phases",
    "C43_ramp_centred_whole_pixels",
    "C43_ramp_centred_refuted",
    "C43_remove_phase_ramp",
    "C43_remove_amplitude_exponent"
   ],
   "note": "The statement is proved as worded, including the defects of the code it names: each of those is itself a theorem (suffix _refuted), showing where the documented or expected behaviour fails."
  },
  {
   "property": "C44",
   "status": "proved",
   "theorems": [
    "C44_rms_minimum",
    "C44_rms_plain",
    "C44_rms_symmetric",
    "C44_rms_phase_invariant",
    "C44_rms_zero",
    "C44_rms_triangle",
    "C44_rms_normalized",
    "C44_rms_scale_free",
    "C44_fidelity_bounds",
    "C44_fidelity_self",
    "C44_fidelity_single",
    "C44_fidelity_symmetric",
    "C44_fidelity_decomposition",
    "C44_fidelity_uhlmann",
    "C44_grms_real",
    "C44_grms_single",
    "C44_grms_decomposition",
    "C44_grms_zero",
    "C44_frc_bound",
    "C44_frc_exchange",
    "C44_frc_same",
    "C44_frc_scale",
    "C44_frc_ring",
    "C44_frc_count",
    "C44_frc_threshold",
    "C44_gfrc_threshold_refuted",
    "C44_gfrc_bounds",
    "C44_gfrc_same",
    "C44_gfrc_decomposition",
    "C44_gfrc_single",
    "C44_gfrc_last_bin_refuted",
    "C44_gfrc_call_refuted"
   ],
   "note": "The statement is proved as worded, including the defects of the code it names: each of those is itself a theorem (suffix _refuted), showing where the documented or expected behaviour fails."
  },
  {
   "property": "C45",
   "status": "proved",
   "theorems": [
    "C45_stack_length",
    "C45_stack_bounds",
    "C45_stack_scale",
    "C45_stack_unitary",
    "C45_single",
    "C45_mixed_state",
    "C45_single_refuted"
   ],
   "note": "The statement is proved as worded, including the defects of the code it names: each of those is itself a theorem (suffix _refuted), showing where the documented or expected behaviour fails."
  },
  {
   "property": "C46",
   "status": "proved",
   "theorems": [
    "C46_fractions",
    "C46_representation_independent",
    "C46_preorthogonalized"
   ],
   "note": ""
  },
  {
   "property": "C47",
   "status": "proved",
   "theorems": [
    "C47_interpolation",
    "C47_through_pixels",
    "C47_mean"
   ],
   "note": ""
  },
  {
   "property": "C48",
   "status": "proved",
   "theorems": [
    "C48_adjoint",
    "C48_positive",
    "C48_same_model",
    "C48_same_model_refuted"
   ],
   "note": "The statement is proved as worded, including the defects of the code it names: each of those is itself a theorem (suffix _refuted), showing where the documented or expected behaviour fails."
  },
  {
   "property": "C49",
   "status": "proved",
   "theorems": [
    "C49_getitem",
    "C49_getslice"
   ],
   "note": ""
  },
  {
   "property": "C50",
   "status": "proved",
   "theorems": [
    "C50_min_interval",
    "C50_individual",
    "C50_panel",
    "C50_stays_closed",
    "C50_errors_contained",
    "C50_callbacks",
    "C50_modes_agree",
    "C50_panel_condition_refuted",
    "C50_late_plot_refuted",
    "C50_failed_callbacks_refuted"
   ],
   "note": "The statement is proved as worded, including the defects of the code it names: each of those is itself a theorem (suffix _refuted), showing where the documented or expected behaviour fails."
  },
  {
   "property": "C51",
   "status": "proved",
   "theorems": [
    "C51_far_field",
    "C51_near_forward",
    "C51_near_stored_inverse",
    "C51_near_field_refuted",
    "C51_tilt_refuted",
    "C51_simple_refuted"
   ],
   "note": "The statement is proved as worded, including the defects of the code it names: each of those is itself a theorem (suffix _refuted), showing where the documented or expected behaviour fails."
  },
  {
   "property": "C52",
   "status": "proved",
   "theorems": [
    "C52_object_plane",
    "C52_reflection_is_specular",
    "C52_transmission_is_flat",
    "C52_fancy_normal",
    "C52_any_length",
    "C52_simulated_dataset",
    "C52_units_refuted",
    "C52_unknown_mode_refuted"
   ],
   "note": "The statement is proved as worded, including the defects of the code it names: each of those is itself a theorem (suffix _refuted), showing where the documented or expected behaviour fails."
  },
  {
   "property": "C53",
   "status": "proved",
   "theorems": [
    "C53_probe_intensities",
    "C53_probe_intensities_1d"
   ],
   "note": ""
  },
  {
   "property": "C54",
   "status": "proved",
   "theorems": [
    "C54_map",
    "C54_total"
   ],
   "note": ""
  },
  {
   "property": "C55",
   "status": "proved",
   "theorems": [
    "C55_fancy_round_trip",
    "C55_multislice_round_trip",
    "C55_bragg_round_trip",
    "C55_rpi_round_trip",
    "C55_simple_round_trip",
    "C55_save_succeeds",
    "C55_float64_refuted",
    "C55_flat_probe_support_refuted",
    "C55_rpi_weights_refuted",
    "C55_fourier_shifts_argument_refuted",
    "C55_loss_name"
   ],
   "note": "The statement is proved as worded, including the defects of the code it names: each of those is itself a theorem (suffix _refuted), showing where the documented or expected behaviour fails."
  },
  {
   "property": "C56",
   "status": "proved",
   "theorems": [
    "C56_projection",
    "C56_parallel_beam",
    "C56_downstream_focus_refuted"
   ],
   "note": "The statement is proved as worded, including the defects of the code it names: each of those is itself a theorem (suffix _refuted), showing where the documented or expected behaviour fails."
  },
  {
   "property": "C57",
   "status": "proved",
   "theorems": [
    "C57_weights",
    "C57_multislice",
    "C57_multislice_refuted",
    "C57_density_matrix"
   ],
   "note": "The statement is proved as worded, including the defects of the code it names: each of those is itself a theorem (suffix _refuted), showing where the documented or expected behaviour fails."
  },
  {
   "property": "C58",
   "status": "proved",
   "theorems": [
    "C58_field_of_view",
    "C58_other_models",
    "C58_oversampled_refuted"
   ],
   "note": "The statement is proved as worded, including the defects of the code it names: each of those is itself a theorem (suffix _refuted), showing where the documented or expected behaviour fails."
  },
  {
   "property": "C59",
   "status": "proved",
   "theorems": [
    "C59_square_pixels",
    "C59_swapped",
    "C59_rectangular_pixels_refuted"
   ],
   "note": "The statement is proved as worded, including the defects of the code it names: each of those is itself a theorem (suffix _refuted), showing where the documented or expected behaviour fails."
  },
  {
   "property": "C60",
   "status": "proved",
   "theorems": [
    "C60_chunks",
    "C60_empty_refuted",
    "C60_orientation"
   ],
   "note": "The statement is proved as worded, including the defects of the code it names: each of those is itself a theorem (suffix _refuted), showing where the documented or expected behaviour fails."
  },
  {
   "property": "C61",
   "status": "proved",
   "theorems": [
    "C61_corrected_positions",
    "C61_correction_is_lateral",
    "C61_bragg_positions",
    "C61_bragg_propagation_refuted"
   ],
   "note": "The statement is proved as worded, including the defects of the code it names: each of those is itself a theorem (suffix _refuted), showing where the documented or expected behaviour fails."
  },
  {
   "property": "C62",
   "status": "proved",
   "theorems": [
    "C62_exit_waves",
    "C62_pattern",
    "C62_whole_pixel",
    "C62_reachable",
    "C62_no_weights_refuted",
    "C62_simulate_translation_refuted",
    "C62_odd_crop_refuted"
   ],
   "note": "The statement is proved as worded, including the defects of the code it names: each of those is itself a theorem (suffix _refuted), showing where the documented or expected behaviour fails."
  },
  {
   "property": "C63",
   "status": "proved",
   "theorems": [
    "C63_gauge",
    "C63_scale",
    "C63_global_phase",
    "C63_regrid",
    "C63_mode_mixing",
    "C63_weight"
   ],
   "note": ""
  },
  {
   "property": "C64",
   "status": "proved",
   "theorems": [
    "C64_conservation",
    "C64_absorption",
    "C64_exponentiated",
    "C64_phase_only_refuted"
   ],
   "note": "The statement is proved as worded, including the defects of the code it names: each of those is itself a theorem (suffix _refuted), showing where the documented or expected behaviour fails."
  },
  {
   "property": "C65",
   "status": "proved",
   "theorems": [
    "C65_pattern",
    "C65_moves",
    "C65_one_pixel_refuted",
    "C65_single_index_refuted"
   ],
   "note": "The statement is proved as worded, including the defects of the code it names: each of those is itself a theorem (suffix _refuted), showing where the documented or expected behaviour fails."
  },
  {
   "property": "C66",
   "status": "proved",
   "theorems": [
    "C66_exit_waves",
    "C66_pattern",
    "C66_conservation",
    "C66_one_slice",
    "C66_displaced_twice_refuted",
    "C66_twice_differs_refuted"
   ],
   "note": "The statement is proved as worded, including the defects of the code it names: each of those is itself a theorem (suffix _refuted), showing where the documented or expected behaviour fails."
  },
  {
   "property": "C67",
   "status": "proved",
   "theorems": [
    "C67_pattern",
    "C67_agrees_with_fancy"
   ],
   "note": ""
  },
  {
   "property": "C68",
   "status": "proved",
   "theorems": [
    "C68_pattern",
    "C68_mode_mixing",
    "C68_object_basis",
    "C68_object_basis_refuted"
   ],
   "note": "The statement is proved as worded, including the defects of the code it names: each of those is itself a theorem (suffix _refuted), showing where the documented or expected behaviour fails."
  },
  {
   "property": "C69",
   "status": "proved",
   "theorems": [
    "C69_propagator",
    "C69_generalized",
    "C69_unit",
    "C69_evanescent_refuted",
    "C69_exit_waves",
    "C69_pattern",
    "C69_conservation",
    "C69_case",
    "C69_case_waves"
   ],
   "note": "The statement is proved as worded, including the defects of the code it names: each of those is itself a theorem (suffix _refuted), showing where the documented or expected behaviour fails."
  },
  {
   "property": "C70",
   "status": "proved",
   "theorems": [
    "C70_coherence",
    "C70_tidy",
    "C70_tidy_scalar",
    "C70_planes_refuted"
   ],
   "note": "The statement is proved as worded, including the defects of the code it names: each of those is itself a theorem (suffix _refuted), showing where the documented or expected behaviour fails."
  },
  {
   "property": "C71",
   "status": "proved",
   "theorems": [
    "C71_common_shift",
    "C71_keeps",
    "C71_defined",
    "C71_iterations",
    "C71_fixed",
    "C71_scale",
    "C71_centres",
    "C71_centroid_between",
    "C71_probes",
    "C71_odd_refuted"
   ],
   "note": "The statement is proved as worded, including the defects of the code it names: each of those is itself a theorem (suffix _refuted), showing where the documented or expected behaviour fails."
  },
  {
   "property": "C72",
   "status": "proved",
   "theorems": [
    "C72_subpixel",
    "C72_find_shift",
    "C72_grid",
    "C72_scale",
    "C72_small_refuted"
   ],
   "note": "The statement is proved as worded, including the defects of the code it names: each of those is itself a theorem (suffix _refuted), showing where the documented or expected behaviour fails."
  },
  {
   "property": "C73",
   "status": "proved",
   "theorems": [
    "C73_fancy_succeeds",
    "C73_fancy",
    "C73_multislice_succeeds",
    "C73_multislice",
    "C73_bragg_succeeds",
    "C73_bragg",
    "C73_rpi_succeeds",
    "C73_rpi",
    "C73_simple",
    "C73_fancy_probe",
    "C73_multislice_probe",
    "C73_bragg_probe",
    "C73_simple_probe",
    "C73_offsets"
   ],
   "note": ""
  },
  {
   "property": "C74",
   "status": "proved",
   "theorems": [
    "C74_sharp_pattern",
    "C74_sharp_phase",
    "C74_sharp_propagated",
    "C74_sharp_power",
    "C74_gaussian_power",
    "C74_gaussian_beam",
    "C74_stem_aperture",
    "C74_stem_power",
    "C74_stem_propagated",
    "C74_near_field_guess"
   ],
   "note": ""
  },
  {
   "property": "C75",
   "status": "proved",
   "theorems": [
    "C75_simulates",
    "C75_simulate_translation_refuted",
    "C75_refused",
    "C75_initial_pattern",
    "C75_near_pattern",
    "C75_photons",
    "C75_simple",
    "C75_grid",
    "C75_positions",
    "C75_simple_grid",
    "C75_support",
    "C75_object",
    "C75_modes"
   ],
   "note": "The statement is proved as worded, including the defects of the code it names: each of those is itself a theorem (suffix _refuted), showing where the documented or expected behaviour fails."
  },
  {
   "property": "C76",
   "status": "proved",
   "theorems": [
    "C76_positions",
    "C76_simulates",
    "C76_initial_pattern",
    "C76_square",
    "C76_photons",
    "C76_oversampling_refuted",
    "C76_probe_shape_refuted",
    "C76_density_intensities_refuted",
    "C76_density_axis_refuted",
    "C76_refused"
   ],
   "note": "The statement is proved as worded, including the defects of the code it names: each of those is itself a theorem (suffix _refuted), showing where the documented or expected behaviour fails."
  },
  {
   "property": "C77",
   "status": "proved",
   "theorems": [
    "C77_value",
    "C77_place",
    "C77_lens_exact",
    "C77_axis",
    "C77_factor",
    "C77_intensity_refuted",
    "C77_outside",
    "C77_stacks",
    "C77_linear",
    "C77_bragg_pattern",
    "C77_bragg_flat"
   ],
   "note": "The statement is proved as worded, including the defects of the code it names: each of those is itself a theorem (suffix _refuted), showing where the documented or expected behaviour fails."
  },
  {
   "property": "C78",
   "status": "proved",
   "theorems": [
    "C78_simulates",
    "C78_geometry",
    "C78_probe_grid",
    "C78_probe_grid_refuted",
    "C78_initial_pattern",
    "C78_lens_pattern",
    "C78_photons",
    "C78_intensities_refuted",
    "C78_crop_zero_refuted",
    "C78_refused"
   ],
   "note": "The statement is proved as worded, including the defects of the code it names: each of those is itself a theorem (suffix _refuted), showing where the documented or expected behaviour fails."
  },
  {
   "property": "C79",
   "status": "proved",
   "theorems": [
    "C79_simulates",
    "C79_pattern",
    "C79_uniform",
    "C79_exponentiate",
    "C79_phase_only_refuted",
    "C79_threshold",
    "C79_lit",
    "C79_band",
    "C79_band_refuted",
    "C79_sizes",
    "C79_full_size_refuted",
    "C79_background_refuted",
    "C79_spectral_refuted",
    "C79_refused",
    "C79_bases",
    "C79_restart",
    "C79_restart_refuted",
    "C79_resize_refuted",
    "C79_calibration",
    "C79_after_ptychography",
    "C79_saturation_refuted",
    "C79_calibration_background_refuted",
    "C79_calibration_spectral_refuted",
    "C79_calibration_geometry_refuted"
   ],
   "note": "The statement is proved as worded, including the defects of the code it names: each of those is itself a theorem (suffix _refuted), showing where the documented or expected behaviour fails."
  },
  {
   "property": "C80",
   "status": "proved",
   "theorems": [
    "C80_pair_exit_waves",
    "C80_pair_global_phase",
    "C80_pair_phase",
    "C80_pair_metrics",
    "C80_pair_identical",
    "C80_pair_inputs",
    "C80_pair_modes_refuted",
    "C80_pair_inputs_refuted",
    "C80_pair_amplitude_refuted",
    "C80_set_exit_waves",
    "C80_set_phase",
    "C80_set_global_phase",
    "C80_set_identical",
    "C80_set_alignment",
    "C80_set_frc",
    "C80_set_shapes_refuted",
    "C80_set_small_refuted",
    "C80_set_amplitude_refuted",
    "C80_set_amplitude",
    "C80_set_halves_refuted"
   ],
   "note": "The statement is proved as worded, including the defects of the code it names: each of those is itself a theorem (suffix _refuted), showing where the documented or expected behaviour fails."
  },
  {
   "property": "C81",
   "status": "proved",
   "theorems": [
    "C81_mean",
    "C81_succeeds",
    "C81_copies",
    "C81_small_refuted",
    "C81_flat_probe_refuted"
   ],
   "note": "The statement is proved as worded, including the defects of the code it names: each of those is itself a theorem (suffix _refuted), showing where the documented or expected behaviour fails."
  },
  {
   "property": "C82",
   "status": "proved",
   "theorems": [
    "C82_value",
    "C82_insensitive",
    "C82_identical",
    "C82_one_ring",
    "C82_mean",
    "C82_above_one_refuted",
    "C82_errors"
   ],
   "note": "The statement is proved as worded, including the defects of the code it names: each of those is itself a theorem (suffix _refuted), showing where the documented or expected behaviour fails."
  },
  {
   "property": "C83",
   "status": "proved",
   "theorems": [
    "C83_pattern",
    "C83_rings",
    "C83_between",
    "C83_order",
    "C83_left_out",
    "C83_errors"
   ],
   "note": "The statement is proved as worded, including the defects of the code it names: each of those is itself a theorem (suffix _refuted), showing where the documented or expected behaviour fails."
  },
  {
   "property": "C84",
   "status": "proved",
   "theorems": [
    "C84_exit_waves",
    "C84_pattern",
    "C84_conservation",
    "C84_one_slice",
    "C84_aligned",
    "C84_misaligned_refuted",
    "C84_fine_first_plane_refuted",
    "C84_fine_first_plane_error_refuted",
    "C84_bandlimit_refuted",
    "C84_propagator",
    "C84_from_dataset_refuted",
    "C84_errors_refuted",
    "C84_tidy_refuted"
   ],
   "note": "The statement is proved as worded, including the defects of the code it names: each of those is itself a theorem (suffix _refuted), showing where the documented or expected behaviour fails."
  },
  {
   "property": "C85",
   "status": "proved",
   "theorems": [
    "C85_browsing",
    "C85_cycle",
    "C85_inverse",
    "C85_shorter_stack_refuted",
    "C85_stale_keys_refuted",
    "C85_more_sliders_refuted",
    "C85_nanomap_stacks",
    "C85_nanomap_single",
    "C85_nanomap_ragged_refuted"
   ],
   "note": "The statement is proved as worded, including the defects of the code it names: each of those is itself a theorem (suffix _refuted), showing where the documented or expected behaviour fails."
  },
  {
   "property": "C86",
   "status": "proved",
   "theorems": [
    "C86_units",
    "C86_ortho",
    "C86_view",
    "C86_limits",
    "C86_replot",
    "C86_replot_other_basis_refuted",
    "C86_replot_other_size_refuted",
    "C86_degenerate_refuted",
    "C86_maps",
    "C86_axis",
    "C86_extent",
    "C86_extent_sheared_refuted",
    "C86_resized",
    "C86_convention"
   ],
   "note": "The statement is proved as worded, including the defects of the code it names: each of those is itself a theorem (suffix _refuted), showing where the documented or expected behaviour fails."
  },
  {
   "property": "C87",
   "status": "proved",
   "theorems": [
    "C87_scale",
    "C87_brightness",
    "C87_distinct",
    "C87_smooth",
    "C87_colorbar",
    "C87_colorbar_rows",
    "C87_table",
    "C87_cut",
    "C87_zero_refuted"
   ],
   "note": "The statement is proved as worded, including the defects of the code it names: each of those is itself a theorem (suffix _refuted), showing where the documented or expected behaviour fails."
  },
  {
   "property": "C88",
   "status": "proved",
   "theorems": [
    "C88_coefficients",
    "C88_value",
    "C88_ideal",
    "C88_photons",
    "C88_photons_refuted",
    "C88_plane_wave",
    "C88_additive",
    "C88_detector",
    "C88_intensity_refuted"
   ],
   "note": "The statement is proved as worded, including the defects of the code it names: each of those is itself a theorem (suffix _refuted), showing where the documented or expected behaviour fails."
  },
  {
   "property": "C89",
   "status": "proved",
   "theorems": [
    "C89_window",
    "C89_small_refuted",
    "C89_defined",
    "C89_flat_refuted",
    "C89_phases",
    "C89_shift",
    "C89_blur",
    "C89_scale",
    "C89_swap",
    "C89_real"
   ],
   "note": "The statement is proved as worded, including the defects of the code it names: each of those is itself a theorem (suffix _refuted), showing where the documented or expected behaviour fails."
  },
  {
   "property": "C90",
   "status": "proved",
   "theorems": [
    "C90_history",
    "C90_walk",
    "C90_windows",
    "C90_open",
    "C90_shared_refuted",
    "C90_empty_refuted"
   ],
   "note": "The statement is proved as worded, including the defects of the code it names: each of those is itself a theorem (suffix _refuted), showing where the documented or expected behaviour fails."
  },
  {
   "property": "C91",
   "status": "proved",
   "theorems": [
    "C91_saved",
    "C91_all_saved",
    "C91_overwritten_refuted",
    "C91_geometry",
    "C91_stale_refuted"
   ],
   "note": "The statement is proved as worded, including the defects of the code it names: each of those is itself a theorem (suffix _refuted), showing where the documented or expected behaviour fails."
  },
  {
   "property": "C92",
   "status": "proved",
   "theorems": [
    "C92_values",
    "C92_mismatch",
    "C92_session",
    "C92_mean",
    "C92_empty_refuted",
    "C92_broadcast_refuted"
   ],
   "note": "The statement is proved as worded, including the defects of the code it names: each of those is itself a theorem (suffix _refuted), showing where the documented or expected behaviour fails."
  },
  {
   "property": "C93",
   "status": "proved",
   "theorems": [
    "C93_modes",
    "C93_intensity",
    "C93_root_refuted",
    "C93_map_support_refuted",
    "C93_multislice",
    "C93_errors"
   ],
   "note": "The statement is proved as worded, including the defects of the code it names: each of those is itself a theorem (suffix _refuted), showing where the documented or expected behaviour fails."
  },
  {
   "property": "C94",
   "status": "proved",
   "theorems": [
    "C94_coherence",
    "C94_density",
    "C94_complete",
    "C94_factors",
    "C94_factor_refuted"
   ],
   "note": "The statement is proved as worded, including the defects of the code it names: each of those is itself a theorem (suffix _refuted), showing where the documented or expected behaviour fails."
  },
  {
   "property": "C95",
   "status": "proved",
   "theorems": [
    "C95_coherence",
    "C95_rhos",
    "C95_tidy",
    "C95_tidy_scalar"
   ],
   "note": ""
  },
  {
   "property": "C96",
   "status": "proved",
   "theorems": [
    "C96_pattern",
    "C96_pattern_multislice",
    "C96_coherence",
    "C96_coherence_multislice",
    "C96_tidy",
    "C96_tidy_multislice",
    "C96_tidy_scalar",
    "C96_tidy_scalar_multislice"
   ],
   "note": ""
  }
 ]
}