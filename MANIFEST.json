{
 "claims": [
  {
   "property": "C01",
   "status": "proved",
   "theorems": [
    "C01_config_last_writer_wins",
    "C01_set_fails_only_without_cupy",
    "C01_array_library_last_choice",
    "C01_bool_round_trip",
    "C01_copy_same_options",
    "C01_copy_keeps_array_library_refuted"
   ],
   "note": ""
  },
  {
   "property": "C02",
   "status": "proved",
   "theorems": [
    "C02_factorize_correct",
    "C02_factorize_trivial",
    "C02_factorisation_unique"
   ],
   "note": ""
  },
  {
   "property": "C03",
   "status": "proved",
   "theorems": [
    "C03_good_size_exact"
   ],
   "note": ""
  },
  {
   "property": "C04",
   "status": "proved",
   "theorems": [
    "C04_adjusted_window",
    "C04_nearest_friendly",
    "C04_fails_only_if_none_in_range",
    "C04_failure_stores_nothing",
    "C04_adjust_3d",
    "C04_adjust_3d_other_options"
   ],
   "note": ""
  },
  {
   "property": "C05",
   "status": "proved",
   "theorems": [
    "C05_adjustment_total_up_to_18301",
    "C05_adjustment_not_total_refuted"
   ],
   "note": ""
  },
  {
   "property": "C06",
   "status": "proved",
   "theorems": [
    "C06_every_step_run_once",
    "C06_one_final_step"
   ],
   "note": ""
  },
  {
   "property": "C07",
   "status": "proved",
   "theorems": [
    "C07_no_deadlock",
    "C07_always_terminates",
    "C07_right_data"
   ],
   "note": ""
  },
  {
   "property": "C08",
   "status": "proved",
   "theorems": [
    "C08_drained_in_its_layer_refuted",
    "C08_same_as_single_process",
    "C08_2d_step_is_the_xi_loop",
    "C08_3d_step_is_the_xi_loop",
    "C08_2d_same_as_single_process",
    "C08_3d_same_as_single_process",
    "C08_3d_cpu_same_as_single_refuted"
   ],
   "note": "C08_2d_/C08_3d_same_as_single_process are about the concrete 2D and 3D beam code (any plasma solver, CPU and GPU) and assume only that in the single-process run no particle is drained for a layer it is not in - the proviso of the property; C08_2d_/C08_3d_step_is_the_xi_loop tie the layer kernel to the xi loop. That proviso can fail: C08_drained_in_its_layer_refuted (2D, strong accelerating field) and C08_3d_cpu_same_as_single_refuted (3D CPU, any particle at rest crossing a layer)."
  },
  {
   "property": "C09",
   "status": "proved",
   "theorems": [
    "C09_second_call_repeats_first_count",
    "C09_step_twice_is_step_sum_refuted"
   ],
   "note": "The property is false of the code; refuted, with the actual behaviour of a second call proved."
  },
  {
   "property": "C10",
   "status": "proved",
   "theorems": [
    "C10_each_layer_gets_its_particles",
    "C10_delivered_exactly_once"
   ],
   "note": ""
  },
  {
   "property": "C11",
   "status": "proved",
   "theorems": [
    "C11_particle_ahead_blocks_everything",
    "C11_particles_behind_still_delivered_refuted"
   ],
   "note": "The wanted property is false of the code: refuted, and the exact failure (every request empty) proved."
  },
  {
   "property": "C12",
   "status": "proved",
   "theorems": [
    "C12_split_is_exact_partition"
   ],
   "note": ""
  },
  {
   "property": "C13",
   "status": "proved",
   "theorems": [
    "C13_no_particle_created_or_dropped",
    "C13_loop_succeeds"
   ],
   "note": ""
  },
  {
   "property": "C14",
   "status": "proved",
   "theorems": [
    "C14_substep_is_least_dyadic_fraction",
    "C14_kept_between_layers",
    "C14_drained_means_one_time_step"
   ],
   "note": ""
  },
  {
   "property": "C15",
   "status": "proved",
   "theorems": [
    "C15_substeps_stay_in_layer_and_wall",
    "C15_free_motion_is_straight",
    "C15_field_lookup_in_range"
   ],
   "note": ""
  },
  {
   "property": "C16",
   "status": "proved",
   "theorems": [
    "C16_weights",
    "C16_density_is_cloud_in_cell",
    "C16_charge_conserved",
    "C16_no_access_outside"
   ],
   "note": ""
  },
  {
   "property": "C17",
   "status": "proved",
   "theorems": [
    "C17_3d_save_then_load",
    "C17_3d_restart_resets_only_substeps",
    "C17_2d_save_then_load_refuted",
    "C17_2d_saved_beam_never_loads"
   ],
   "note": "3D proved; the 2D half is false of the code (the saved column names are not the ones read): refuted."
  },
  {
   "property": "C18",
   "status": "proved",
   "theorems": [
    "C18_each_layer_gets_its_particles",
    "C18_particle_at_the_front_refuted"
   ],
   "note": "Proved for beams strictly behind the first layer's front; with a particle at or ahead of the front the property is false of the code (refuted)."
  },
  {
   "property": "C19",
   "status": "proved",
   "theorems": [
    "C19_mover_classifies",
    "C19_nothing_vanishes",
    "C19_exact_without_losses",
    "C19_drained_made_one_time_step",
    "C19_loop_succeeds",
    "C19_never_forward_and_inside",
    "C19_free_motion_is_straight",
    "C19_exactly_one_of_three_refuted",
    "C19_lost_particles_are_not_drained_refuted",
    "C19_finished_in_layer_is_drained_refuted",
    "C19_cpu_drains_only_right_of_window_depth"
   ],
   "note": "Accounting, histories and termination proved; the exact trichotomy is false of the code on both processors (refuted with consequences: lost particles drained on GPU, finished ones withheld on CPU)."
  },
  {
   "property": "C20",
   "status": "proved",
   "theorems": [
    "C20_density_is_spline_cloud",
    "C20_charge_conserved",
    "C20_writes_stay_on_grid",
    "C20_writes_stay_on_any_grid_refuted",
    "C20_particle_on_next_layer_leaves_this_one_refuted",
    "C20_centre_of_charge_is_mirrored"
   ],
   "note": "Exact densities and charge conservation proved; the longitudinal share is mirrored (refuted and exact mirrored centre proved)."
  },
  {
   "property": "C21",
   "status": "proved",
   "theorems": [
    "C21_transverse_interpolation_exact",
    "C21_longitudinally_one_layer_behind",
    "C21_field_at_a_layer_is_that_layers_field_refuted",
    "C21_uniform_field_exact"
   ],
   "note": "Transverse exactness proved; longitudinally the code extrapolates one layer back (proved exactly, wanted property refuted)."
  },
  {
   "property": "C22",
   "status": "proved",
   "theorems": [
    "C22_neumann_solves",
    "C22_neumann_unique",
    "C22_dirichlet_solves",
    "C22_dirichlet_unique"
   ],
   "note": ""
  },
  {
   "property": "C23",
   "status": "proved",
   "theorems": [
    "C23_forward",
    "C23_backward",
    "C23_modes_differ_by_the_total",
    "C23_linear",
    "C23_forward_exact_on_affine",
    "C23_backward_exact_on_affine"
   ],
   "note": ""
  },
  {
   "property": "C24",
   "status": "proved",
   "theorems": [
    "C24_radial_electric_field",
    "C24_azimuthal_electric_field",
    "C24_longitudinal_electric_field",
    "C24_azimuthal_magnetic_field",
    "C24_longitudinal_magnetic_field",
    "C24_second_result_is_the_average"
   ],
   "note": ""
  },
  {
   "property": "C25",
   "status": "proved",
   "theorems": [
    "C25_every_node",
    "C25_shares_sum_to_one",
    "C25_total_charge",
    "C25_total_charge_minus_current",
    "C25_stays_in_the_arrays",
    "C25_initial_plasma_stays_in_the_arrays_refuted",
    "C25_initial_plasma_stays_when_narrow"
   ],
   "note": "Node values, total charge, rho-j_z proved for particles in the cell of a node; that the initial plasma always is so is false of the code (refuted: a window ending between 0.5 and 1 cell after the last node writes past the arrays)."
  },
  {
   "property": "C26",
   "status": "proved",
   "theorems": [
    "C26_stays_in_the_window",
    "C26_removed_particles_stay",
    "C26_free_particle_moves_straight",
    "C26_layer_keeps_particles",
    "C26_fields_on_the_particle",
    "C26_declustering_field",
    "C26_time_centred_push",
    "C26_too_fast_is_removed"
   ],
   "note": ""
  },
  {
   "property": "C27",
   "status": "proved",
   "theorems": [
    "C27_substeps_cover_the_step",
    "C27_terminates",
    "C27_every_particle",
    "C27_path_bounds_the_motion"
   ],
   "note": ""
  },
  {
   "property": "C28",
   "status": "proved",
   "theorems": [
    "C28_substeps_cover_the_step",
    "C28_terminates",
    "C28_plasma_layer",
    "C28_plasma_layer_terminates",
    "C28_any_configuration_terminates_refuted"
   ],
   "note": "Proved for any detector and for the concrete 2D layer; with trapped-path-limit set the layer raises (refuted)."
  },
  {
   "property": "C29",
   "status": "proved",
   "theorems": [
    "C29_particles_fill_the_window",
    "C29_every_ring_has_a_particle",
    "C29_mobile_ions_pair_up",
    "C29_neutral",
    "C29_plasma_without_beam_stays",
    "C29_mobile_plasma_without_beam_stays",
    "C29_uniform_density_inside",
    "C29_uniform_density_on_the_axis",
    "C29_uniform_density_everywhere_refuted",
    "C29_uniform_density_on_the_axis_odd_refuted",
    "C29_declustering_leaves_the_initial_plasma_alone_refuted"
   ],
   "note": "Neutrality, equilibrium without beam, exact density inside and (even ppc) near the axis proved; uniform density at the wall / on the axis for odd ppc and inertness under declustering are false of the code (refuted)."
  },
  {
   "property": "C30",
   "status": "proved",
   "theorems": [
    "C30_charged_electrons_inside",
    "C30_charged_ions_inside",
    "C30_absorbed_in_the_layer",
    "C30_absorbed_forever",
    "C30_run_inside",
    "C30_midpoint_motion",
    "C30_wall_mirrors_and_stops",
    "C30_midpoint_always_brought_back_refuted",
    "C30_midpoint_brought_back_iff"
   ],
   "note": "Wall behaviour, absorption and midpoint motion proved for all states; that a midpoint is always brought back inside is false (refuted, exact range -3b..5b proved as _partial)."
  },
  {
   "property": "C31",
   "status": "proved",
   "theorems": [
    "C31_weights",
    "C31_cell_values",
    "C31_total_charge",
    "C31_layer_charge",
    "C31_indices_inside",
    "C31_interpolation_linear",
    "C31_interpolation_is_spline_sum"
   ],
   "note": ""
  },
  {
   "property": "C32",
   "status": "proved",
   "theorems": [
    "C32_Ez",
    "C32_Phi",
    "C32_Bz",
    "C32_Bz_source_mean_free",
    "C32_outer_rings_empty",
    "C32_transverse",
    "C32_transverse_converged",
    "C32_transverse_unique",
    "C32_half_is_average",
    "C32_transforms_invert"
   ],
   "note": ""
  },
  {
   "property": "C33",
   "status": "proved",
   "theorems": [
    "C33_output_when_due",
    "C33_never",
    "C33_every_multiple_has_output",
    "C33_small_period_every_step",
    "C33_whole_period",
    "C33_once_outside_ties",
    "C33_exactly_once_refuted",
    "C33_same_output_for_any_ranks"
   ],
   "note": "Proved: the output condition means exactly 'within dt/2 of a multiple', every multiple reached has an output step, whole periods give every m-th step, periods <= dt every step, independence of the number of ranks. 'Exactly once' fails at exact ties (C33_exactly_once_refuted); elsewhere it holds (C33_once_outside_ties)."
  },
  {
   "property": "C34",
   "status": "proved",
   "theorems": [
    "C34_flag_means_recorded",
    "C34_unsupported_2d_refuted",
    "C34_names_parsed",
    "C34_accepted_names",
    "C34_documented_names_refuted"
   ],
   "note": "Flags are recorded exactly when asked for (see also C49); the literal statement fails: missing comma in DiagnosticsFXi refuses 'ni' and 'rho_beam' and accepts 'nirho_beam' (C34_documented_names_refuted), and in 2D some accepted quantities raise (C34_unsupported_2d_refuted)."
  },
  {
   "property": "C35",
   "status": "proved",
   "theorems": [
    "C35_ids_and_order",
    "C35_layers",
    "C35_layer_charge",
    "C35_succeeds",
    "C35_fails_on_boundary",
    "C35_particles_inside_beam_refuted",
    "C35_half_step_from_segment"
   ],
   "note": "Ids, order, layers, charge per layer proved for every draw; generation fails when a layer middle hits a segment boundary (C35_fails_on_boundary), and layers overhanging the end put particles outside the beam (C35_particles_inside_beam_refuted)."
  },
  {
   "property": "C36",
   "status": "proved",
   "theorems": [
    "C36_total_length",
    "C36_each_point_in_one_segment",
    "C36_outside",
    "C36_boundaries_uncovered",
    "C36_every_point_refuted",
    "C36_shapes_between_0_and_1"
   ],
   "note": "Proved for every xi strictly inside a segment; the boundaries belong to no segment (C36_boundaries_uncovered, C36_every_point_refuted)."
  },
  {
   "property": "C37",
   "status": "proved",
   "theorems": [
    "C37_radius_is_inverse_cdf",
    "C37_draws_2d",
    "C37_draws_3d",
    "C37_inside_window",
    "C37_shifted_inside_window_refuted"
   ],
   "note": "Inverse CDF and cut-off proved; a beam shifted off axis is cut at the unshifted window (C37_shifted_inside_window_refuted)."
  },
  {
   "property": "C38",
   "status": "proved",
   "theorems": [
    "C38_table",
    "C38_between_ends",
    "C38_continuous",
    "C38_dumped_table_same_refuted"
   ],
   "note": "Interpolation and continuity proved; the dumped table is lower-cased and read back differently (C38_dumped_table_same_refuted)."
  },
  {
   "property": "C39",
   "status": "proved",
   "theorems": [
    "C39_stepwise_ramp",
    "C39_stepwise_outer_edge",
    "C39_stepwise_decreasing_refuted",
    "C39_stepwise_sharp",
    "C39_empty_ramp_fails",
    "C39_channel",
    "C39_hollow_channel",
    "C39_channel_negative",
    "C39_channel_becomes_uniform",
    "C39_channel_ideal_refuted",
    "C39_channel_sharp",
    "C39_profile_of_distance",
    "C39_parabolic",
    "C39_gaussian",
    "C39_uniform"
   ],
   "note": "Each profile's value proved exactly; deviations refuted: outermost stepwise particle keeps density 1, empty ramp raises, channel ramp gives negative density (then falls back to uniform)."
  },
  {
   "property": "C40",
   "status": "proved",
   "theorems": [
    "C40_touches_only_transverse_momentum",
    "C40_strength",
    "C40_total_momentum",
    "C40_momentum_conserved",
    "C40_momentum_conserved_with_damping_refuted",
    "C40_absorbed_left_alone_refuted",
    "C40_bounded",
    "C40_linear_displacement_untouched",
    "C40_chaotic_part_has_no_mean"
   ],
   "note": "Conservation, bound, strength and neutrality to linear displacements proved; with damping on the total is not conserved (exact change proved, refuted), and absorbed particles are not left alone (refuted)."
  },
  {
   "property": "C41",
   "status": "proved",
   "theorems": [
    "C41_built_iff_supported",
    "C41_entries_are_the_fields",
    "C41_message_round_trip"
   ],
   "note": ""
  },
  {
   "property": "C42",
   "status": "proved",
   "theorems": [
    "C42_weights",
    "C42_linear_displacement",
    "C42_initial_plasma",
    "C42_total_of_coarse_refuted"
   ],
   "note": "Weights, linear displacements and equality with the single-grid plasma proved; total equal to the coarse plasma's is false (refuted). The dual mode itself cannot start (NameError at initialization.py:307)."
  },
  {
   "property": "C43",
   "status": "proved",
   "theorems": [
    "C43_geometry_case_insensitive_refuted",
    "C43_geometry_lowercase_partial"
   ],
   "note": ""
  },
  {
   "property": "C44",
   "status": "proved",
   "theorems": [
    "C44_fineness_at_least_one",
    "C44_fineness_below_one",
    "C44_round_is_nearest",
    "C44_round_keeps_integers"
   ],
   "note": ""
  },
  {
   "property": "C45",
   "status": "proved",
   "theorems": [
    "C45_magnetic_field_keeps_energy_gpu",
    "C45_magnetic_field_heats_cpu",
    "C45_magnetic_field_keeps_energy_cpu_refuted",
    "C45_magnetic_field_heats_2d"
   ],
   "note": "Proved for the GPU pusher; false of the CPU 3D and the 2D pushers (exact heating proved, refuted)."
  },
  {
   "property": "C46",
   "status": "proved",
   "theorems": [
    "C46_rotation_is_implicit_midpoint",
    "C46_midpoint_factor_for_unit_mass",
    "C46_factor_defect",
    "C46_midpoint_factor_refuted"
   ],
   "note": "Proved for |q/m|=1; false otherwise (exact defect proved, refuted)."
  },
  {
   "property": "C47",
   "status": "proved",
   "theorems": [
    "C47_quiet_plasma"
   ],
   "note": ""
  },
  {
   "property": "C48",
   "status": "proved",
   "theorems": [
    "C48_initial_density",
    "C48_neutral",
    "C48_charge_to_mass"
   ],
   "note": ""
  },
  {
   "property": "C49",
   "status": "proved",
   "theorems": [
    "C49_fxi_files_3d",
    "C49_fxi_files_2d",
    "C49_first_step_output",
    "C49_slice_files",
    "C49_xy_slice_files",
    "C49_xy_first_step_refuted",
    "C49_particle_files",
    "C49_slice_files_2d"
   ],
   "note": "Proved for FXiDiag (2D, 3D), SliceDiag (XI_X, XI_Y, X_Y, 2D) and ParticlesDiag. X_Y slices check the period again, so the always-written first file is empty (C49_xy_first_step_refuted)."
  },
  {
   "property": "C50",
   "status": "proved",
   "theorems": [
    "C50_probe_lines",
    "C50_probe_radius",
    "C50_probe_outside_refuted",
    "C50_slice_cells",
    "C50_slice_line",
    "C50_nearest_line_refuted",
    "C50_line_outside_refuted",
    "C50_default_window",
    "C50_whole_window_refuted",
    "C50_xy_last_cells_refuted",
    "C50_default_2d",
    "C50_default_layers",
    "C50_probe_values",
    "C50_radius_values",
    "C50_radius_outside_refuted",
    "C50_xy_slice_cells",
    "C50_xy_rectangle_refuted"
   ],
   "note": "Positive part proved; deviations of the code proved as refutations: negative out-of-window probe wraps, slice line is floor not nearest, XI_X offset out of the window raises, default XI slices miss the last column when (n-1)/2 is even, X_Y slices never contain the last row and column, 2D default misses the last radius."
  },
  {
   "property": "C51",
   "status": "proved",
   "theorems": [
    "C51_distinct_files",
    "C51_distinct_files_whole",
    "C51_short_step_refuted",
    "C51_two_slices_refuted"
   ],
   "note": "Distinct for dt > 0.01 or dt a whole number of hundredths; fails for shorter steps (C51_short_step_refuted) and for two slices of different planes in one directory (C51_two_slices_refuted)."
  },
  {
   "property": "C52",
   "status": "proved",
   "theorems": [
    "C52_flux_nonnegative",
    "C52_flux_zero",
    "C52_largest_displacement",
    "C52_largest_central_displacement"
   ],
   "note": ""
  },
  {
   "property": "C53",
   "status": "proved",
   "theorems": [
    "C53_particles_follow_their_segment",
    "C53_charge_and_ratio",
    "C53_charge_sign_refuted"
   ],
   "note": "Segment attributes, equal |charge| and ratio proved; the charge sign does not follow a negative segment current (C53_charge_sign_refuted)."
  },
  {
   "property": "C54",
   "status": "proved",
   "theorems": [
    "C54_segments",
    "C54_no_segments",
    "C54_shape_values",
    "C54_unknown_parameter_rejected",
    "C54_unknown_segment_parameter_rejected_refuted"
   ],
   "note": "Proved; 'default' affects only later segments, and misspelt parameters inside a segment are ignored silently (C54_unknown_segment_parameter_rejected_refuted)."
  },
  {
   "property": "C55",
   "status": "proved",
   "theorems": [
    "C55_scaling",
    "C55_radial_table"
   ],
   "note": ""
  },
  {
   "property": "C56",
   "status": "proved",
   "theorems": [
    "C56_2d_substep",
    "C56_2d_angular_momentum",
    "C56_3d_cpu_substep",
    "C56_3d_gpu_substep"
   ],
   "note": ""
  },
  {
   "property": "C57",
   "status": "proved",
   "theorems": [
    "C57_2d_wake_ignores_what_is_behind",
    "C57_2d_motion_ignores_what_is_behind",
    "C57_3d_wake_ignores_what_is_behind",
    "C57_3d_motion_ignores_what_is_behind"
   ],
   "note": ""
  },
  {
   "property": "C58",
   "status": "proved",
   "theorems": [
    "C58_plasma_layer_does_not_know_the_axes",
    "C58_initial_plasma_does_not_know_the_axes",
    "C58_gpu_time_step_does_not_know_the_axes",
    "C58_cpu_time_step_does_not_know_the_axes_refuted",
    "C58_wake_does_not_know_the_axes",
    "C58_symmetric_beam_makes_symmetric_wake"
   ],
   "note": ""
  },
  {
   "property": "C59",
   "status": "proved",
   "theorems": [
    "C59_2d_plasma_sees_the_beam_layer_by_layer",
    "C59_2d_particles_fly_in_the_wake",
    "C59_2d_flight_is_unique",
    "C59_3d_plasma_sees_the_beam_layer_by_layer",
    "C59_3d_particles_fly_in_the_wake",
    "C59_3d_flight_is_unique"
   ],
   "note": ""
  },
  {
   "property": "C60",
   "status": "proved",
   "theorems": [
    "C60_layer_is_predictor_corrector",
    "C60_scheme_determines_the_layer",
    "C60_push_beyond_the_wall"
   ],
   "note": "Complete: the layer satisfies the specification and the specification determines it; hypothesis 'calm' is needed because farther half-way points are read from the wrong end of the arrays (C30_midpoint_always_brought_back_refuted)."
  },
  {
   "property": "C61",
   "status": "proved",
   "theorems": [
    "C61_plasma_sees_the_exchanged_density",
    "C61_plasma_sees_the_given_density_refuted",
    "C61_symmetric_density",
    "C61_result_is_exchanged",
    "C61_one_time_step"
   ],
   "note": "As stated refuted: meshgrid's default indexing transposes the density, so x and y are exchanged. Proved: plasma sees exactly the exchanged density; right for densities symmetric in x,y; for a symmetric plasma the whole result is the right one exchanged; one time step, made by rank 0."
  },
  {
   "property": "C62",
   "status": "proved",
   "theorems": [
    "C62_3d_load_gives_what_is_written",
    "C62_2d_load_gives_what_is_written",
    "C62_saved_states_load_refuted",
    "C62_pickled_species_refused",
    "C62_continues_with_the_next_layer",
    "C62_layers_of_a_continued_run",
    "C62_2d_continuing_gives_the_same_wake",
    "C62_3d_continuing_gives_the_same_wake",
    "C62_2d_continuing_always_the_same_refuted"
   ],
   "note": "Loading proved equivalent to 'written in the archive'; continuing proved for 2D and 3D; that the package's own files load, and that continuing is right with beam just ahead of the stop, are false of the code (refuted)."
  },
  {
   "property": "C63",
   "status": "proved",
   "theorems": [
    "C63_layer_is_the_scheme",
    "C63_scheme_determines_the_layer",
    "C63_every_layer_exists_and_is_unique"
   ],
   "note": "For every fuel the fuelled loops get; every_layer_exists gives that enough fuel exists. Ages of particles are left out (trapped-path-limit must be 0, else the code raises: C28). The window condition is the one under which the deposition stays in the arrays (C25)."
  },
  {
   "property": "C64",
   "status": "proved",
   "theorems": [
    "C64_transforms",
    "C64_fields",
    "C64_deposit_any_order",
    "C64_beam_density_any_order",
    "C64_layer_follows_the_scheme",
    "C64_run_on_gpu_is_run_on_cpu",
    "C64_gpu_runs_agree"
   ],
   "note": "Exact reals, unbounded ints; rfft2 at its documented definition. The GPU beam pusher is a different (Higuera-Cary) scheme by design: C45, C46 and C56 speak about it. The dual plasma approach on the GPU raises UnboundLocalError (weights.py:260-262) and is left out."
  },
  {
   "property": "C65",
   "status": "proved",
   "theorems": [
    "C65_plasma_layer_does_not_know_left_from_right",
    "C65_initial_plasma_does_not_know_left_from_right",
    "C65_wake_does_not_know_left_from_right",
    "C65_symmetric_beam_makes_symmetric_wake",
    "C65_far_flights_know_left_from_right_refuted"
   ],
   "note": "CPU code, exact reals. Odd grid sizes (the code requires them). Up-down follows from this and C58 (exchange of x and y), not stated separately."
  },
  {
   "property": "C66",
   "status": "proved",
   "theorems": [
    "C66_count_is_at_most_one_short",
    "C66_rounded_count_is_exact",
    "C66_count_of_broken_length",
    "C66_count_of_exact_steps_is_exact",
    "C66_count_is_exact_refuted",
    "C66_short_count_overruns_the_arrays",
    "C66_adjusted_grid_is_kept",
    "C66_rerun_loses_at_most_two_cells",
    "C66_rerun_keeps_the_grid_refuted",
    "C66_every_kth_step_is_output",
    "C66_every_kth_layer_is_saved"
   ],
   "note": "binary64 with round to nearest even (Flocq round/FLT); overflow, nan, inf left out. math.remainder is exact by IEEE 754."
  },
  {
   "property": "C67",
   "status": "proved",
   "theorems": [
    "C67_options_are_recorded",
    "C67_names_are_recorded",
    "C67_half_width_3d",
    "C67_tables_are_recorded",
    "C67_one_word_rshape_recorded_refuted",
    "C67_developer_options_recorded_refuted",
    "C67_only_listed_options",
    "C67_function_shape_by_name",
    "C67_dump_succeeds",
    "C67_rerun_keeps_the_grid"
   ],
   "note": "Texts without backslash (re.sub would interpret it), apostrophe or comma. The text is what is written, Python's reading of it is not modelled: a switch given as the text true is written without quotes and is then not a Python literal."
  },
  {
   "property": "C68",
   "status": "proved",
   "theorems": [
    "C68_names",
    "C68_short_names",
    "C68_profile_values",
    "C68_profile_slopes",
    "C68_profile_mirrors",
    "C68_linear_profiles",
    "C68_gaussian_reaches_amplitude_refuted",
    "C68_energy_spectra",
    "C68_energy_levels",
    "C68_levels_within_a_layer_refuted"
   ],
   "note": "Random draws are arbitrary streams: that they are uniform or normal is not claimed."
  },
  {
   "property": "C69",
   "status": "proved",
   "theorems": [
    "C69_quiet_in_any_rounding",
    "C69_binary64_is_a_rounding",
    "C69_without_rounding_it_is_the_exact_model",
    "C69_transforms_keep_zeros",
    "C69_positions_are_inside_the_walls",
    "C69_no_division_by_zero",
    "C69_quiet_in_binary64"
   ],
   "note": "Overflow, nan and inf are not modelled; scipy's transforms are only assumed to turn zeros into zeros."
  },
  {
   "property": "C70",
   "status": "proved",
   "theorems": [
    "C70_square_root_of_square",
    "C70_quiet_in_any_rounding",
    "C70_without_rounding_it_is_the_exact_model",
    "C70_quiet_in_binary64",
    "C70_particles_stay_in_the_arrays",
    "C70_mobile_ions_cancel_exactly_refuted",
    "C70_field_solver_never_divides_by_zero"
   ],
   "note": "Overflow, nan and inf are not modelled."
  },
  {
   "property": "C71",
   "status": "proved",
   "theorems": [
    "C71_names",
    "C71_bands",
    "C71_positions",
    "C71_weights",
    "C71_total_is_the_area",
    "C71_subchannel_is_a_ramp",
    "C71_uniform_is_the_plasma_of_the_run",
    "C71_narrow_bands_raise",
    "C71_numbers_as_in_the_run_refuted"
   ],
   "note": ""
  },
  {
   "property": "C72",
   "status": "proved",
   "theorems": [
    "C72_segments",
    "C72_bad_profiles_raise",
    "C72_layers",
    "C72_beam",
    "C72_segments_share_the_layers",
    "C72_current",
    "C72_radii",
    "C72_mean_momenta",
    "C72_only_circular",
    "C72_no_current_no_charge_refuted",
    "C72_ids_tell_particles_apart_refuted",
    "C72_profile_text",
    "C72_profile_numbers_whole",
    "C72_every_entry_is_read_refuted"
   ],
   "note": ""
  },
  {
   "property": "C73",
   "status": "proved",
   "theorems": [
    "C73_2d_each_layer_gets_its_particles",
    "C73_2d_delivered_exactly_once",
    "C73_3d_each_layer_gets_its_particles",
    "C73_borders"
   ],
   "note": ""
  },
  {
   "property": "C74",
   "status": "proved",
   "theorems": [
    "C74_3d_beam_charge",
    "C74_2d_beam_charge",
    "C74_3d_plasma_charge",
    "C74_2d_plasma_charge"
   ],
   "note": ""
  },
  {
   "property": "C75",
   "status": "proved",
   "theorems": [
    "C75_3d_beam_density",
    "C75_3d_beam_sheet",
    "C75_2d_beam_density",
    "C75_3d_plasma_densities",
    "C75_2d_plasma_densities"
   ],
   "note": ""
  },
  {
   "property": "C76",
   "status": "proved",
   "theorems": [
    "C76_3d_plasma_field",
    "C76_3d_beam_field",
    "C76_3d_beam_fields",
    "C76_2d_plasma_field",
    "C76_2d_beam_field"
   ],
   "note": ""
  },
  {
   "property": "C77",
   "status": "proved",
   "theorems": [
    "C77_fxi_files",
    "C77_fxi_crash",
    "C77_colormap_files",
    "C77_grid_refuted",
    "C77_merging_refuted",
    "C77_late_window_refuted",
    "C77_particle_maps_refuted",
    "C77_low_limit_refuted",
    "C77_repeated_name_refuted",
    "C77_transverse_refuted",
    "C77_save_plasma_refuted",
    "C77_save_beam",
    "C77_save_beam_refuted",
    "C77_names"
   ],
   "note": ""
  },
  {
   "property": "C78",
   "status": "proved",
   "theorems": [
    "C78_3d_half_step",
    "C78_3d_substep_in_fields",
    "C78_3d_substep",
    "C78_2d_half_step",
    "C78_2d_substep_in_fields",
    "C78_2d_substep"
   ],
   "note": ""
  },
  {
   "property": "C79",
   "status": "proved",
   "theorems": [
    "C79_3d_speed_limit",
    "C79_3d_never_forward",
    "C79_2d_forward_by_roundings",
    "C79_2d_can_move_forward",
    "C79_2d_rounding_stops_the_beam"
   ],
   "note": ""
  },
  {
   "property": "C80",
   "status": "proved",
   "theorems": [
    "C80_table",
    "C80_3d_columns",
    "C80_2d_momentum",
    "C80_saving_refuted",
    "C80_geometry_2d_refuted",
    "C80_positive_current",
    "C80_rotation_sense_refuted"
   ],
   "note": ""
  },
  {
   "property": "C81",
   "status": "proved",
   "theorems": [
    "C81_gauss_counts",
    "C81_gauss_values",
    "C81_middle_layer",
    "C81_limits_raise_density",
    "C81_limits_are_coordinates_refuted",
    "C81_rgauss_counts",
    "C81_rgauss_width_refuted"
   ],
   "note": ""
  },
  {
   "property": "C82",
   "status": "proved",
   "theorems": [
    "C82_fields",
    "C82_beam",
    "C82_listed_beam",
    "C82_plasma",
    "C82_without_layer_0_refuted",
    "C82_plasma_only_on_time_refuted",
    "C82_end_at_0_refuted",
    "C82_periods_in_binary64_refuted"
   ],
   "note": ""
  },
  {
   "property": "C83",
   "status": "proved",
   "theorems": [
    "C83_smooth_values",
    "C83_smooth_counts",
    "C83_smooth_reference",
    "C83_smooth_lower_limit_refuted",
    "C83_rejection",
    "C83_acceptance",
    "C83_number_refuted"
   ],
   "note": ""
  }
 ]
}