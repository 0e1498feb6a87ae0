{
 "claims": [
  {
   "property": "C01",
   "status": "proved",
   "theorems": [
    "C01_material_constructor_iff",
    "C01_material_consistent"
   ],
   "note": ""
  },
  {
   "property": "C02",
   "status": "proved",
   "theorems": [
    "C02_library_is_a_map",
    "C02_available_names",
    "C02_other_names_irrelevant"
   ],
   "note": ""
  },
  {
   "property": "C03",
   "status": "proved",
   "theorems": [
    "C03_constructor_succeeds",
    "C03_shaft_geometry"
   ],
   "note": ""
  },
  {
   "property": "C04",
   "status": "proved",
   "theorems": [
    "C04_mass_is_kinetic_energy",
    "C04_interpolation_ends"
   ],
   "note": ""
  },
  {
   "property": "C05",
   "status": "proved",
   "theorems": [
    "C05_stiffness_is_strain_energy"
   ],
   "note": ""
  },
  {
   "property": "C06",
   "status": "proved",
   "theorems": [
    "C06_mass_spd"
   ],
   "note": ""
  },
  {
   "property": "C07",
   "status": "proved",
   "theorems": [
    "C07_stiffness_symmetric_iff_no_torque",
    "C07_stiffness_psd",
    "C07_stiffness_kernel"
   ],
   "note": ""
  },
  {
   "property": "C08",
   "status": "proved",
   "theorems": [
    "C08_disk_gyro",
    "C08_rotor_gyroscopic_no_work",
    "C08_shaft_gyro_skew",
    "C08_shaft_gyro_is_polar_inertia",
    "C08_shaft_gyro_off"
   ],
   "note": ""
  },
  {
   "property": "C09",
   "status": "proved",
   "theorems": [
    "C09_disk_six_dof_lateral",
    "C09_six_dof_lateral"
   ],
   "note": ""
  },
  {
   "property": "C10",
   "status": "proved",
   "theorems": [
    "C10_six_dof_gyro_cylinder",
    "C10_six_dof_gyro_iff",
    "C10_six_dof_gyro_refuted"
   ],
   "note": ""
  },
  {
   "property": "C11",
   "status": "proved",
   "theorems": [
    "C11_disk_from_geometry",
    "C11_disk_kinetic_energy",
    "C11_disk_mass_pd"
   ],
   "note": ""
  },
  {
   "property": "C12",
   "status": "proved",
   "theorems": [
    "C12_quantity_converted",
    "C12_same_quantity_same_value",
    "C12_plain_number_is_table_unit",
    "C12_plain_unchanged",
    "C12_no_unit_name_unchanged",
    "C12_key_unique",
    "C12_call",
    "C12_call_fails_only_on_dimension",
    "C12_mz_refuted",
    "C12_table_meaning",
    "C12_meaning_unique",
    "C12_si_value"
   ],
   "note": ""
  },
  {
   "property": "C13",
   "status": "proved",
   "theorems": [
    "C13_scalar_is_constant",
    "C13_short_table_exact",
    "C13_long_table_close",
    "C13_long_table_refuted",
    "C13_lengths_checked",
    "C13_unordered_refuted",
    "C13_defaults"
   ],
   "note": ""
  },
  {
   "property": "C14",
   "status": "proved",
   "theorems": [
    "C14_stiffness",
    "C14_damping",
    "C14_mass",
    "C14_stiffness_6dof",
    "C14_damping_6dof",
    "C14_mass_6dof",
    "C14_linked_action_reaction",
    "C14_linked_energy"
   ],
   "note": ""
  },
  {
   "property": "C15",
   "status": "proved",
   "theorems": [
    "C15_axial_length_refuted",
    "C15_short_tables_checked",
    "C15_no_frequency_checked"
   ],
   "note": ""
  },
  {
   "property": "C16",
   "status": "proved",
   "theorems": [
    "C16_bearing_round_trip",
    "C16_seal_round_trip_halves_scale",
    "C16_seal_round_trip_refuted"
   ],
   "note": ""
  },
  {
   "property": "C17",
   "status": "proved",
   "theorems": [
    "C17_saveable_classes",
    "C17_rolling_save_refuted"
   ],
   "note": ""
  },
  {
   "property": "C18",
   "status": "proved",
   "theorems": [
    "C18_numbering_bijective",
    "C18_element_dofs"
   ],
   "note": ""
  },
  {
   "property": "C19",
   "status": "proved",
   "theorems": [
    "C19_sum_of_elements",
    "C19_matrices_exist",
    "C19_symmetry",
    "C19_order_irrelevant",
    "C19_ignored_contribution"
   ],
   "note": ""
  },
  {
   "property": "C20",
   "status": "proved",
   "theorems": [
    "C20_total_mass",
    "C20_mass_positive_definite"
   ],
   "note": ""
  },
  {
   "property": "C21",
   "status": "proved",
   "theorems": [
    "C21_free_rotor_kernel",
    "C21_supported_rotor_definite"
   ],
   "note": ""
  },
  {
   "property": "C22",
   "status": "proved",
   "theorems": [
    "C22_accepted_is_sane",
    "C22_duplicate_tags_rejected",
    "C22_well_formed_accepted",
    "C22_gap_refuted",
    "C22_link_refuted",
    "C22_mixed_point_mass_refuted",
    "C22_point_mass_on_shaft_refuted",
    "C22_bearing_and_seal_at_end_refuted"
   ],
   "note": ""
  },
  {
   "property": "C23",
   "status": "proved",
   "theorems": [
    "C23_node_positions",
    "C23_mass_and_centre_of_gravity"
   ],
   "note": ""
  },
  {
   "property": "C24",
   "status": "proved",
   "theorems": [
    "C24_state_space",
    "C24_first_order_form",
    "C24_state_matrix_exists"
   ],
   "note": ""
  },
  {
   "property": "C25",
   "status": "proved",
   "theorems": [
    "C25_passive_stable"
   ],
   "note": ""
  },
  {
   "property": "C26",
   "status": "proved",
   "theorems": [
    "C26_transfer_matrix",
    "C26_forced_response",
    "C26_superposition",
    "C26_frequency_refuted",
    "C26_mode_selection"
   ],
   "note": ""
  },
  {
   "property": "C27",
   "status": "proved",
   "theorems": [
    "C27_unbalance_force",
    "C27_unbalance_response",
    "C27_length_mismatch",
    "C27_superposition",
    "C27_order_irrelevant",
    "C27_shaft_nodes_accepted",
    "C27_support_node_refuted"
   ],
   "note": ""
  },
  {
   "property": "C28",
   "status": "proved",
   "theorems": [
    "C28_step_equations",
    "C28_linear_solution",
    "C28_solvable",
    "C28_small_forces_ignored",
    "C28_first_instant_unused",
    "C28_constant_acceleration_refuted",
    "C28_energy_balance",
    "C28_energy_decay"
   ],
   "note": ""
  },
  {
   "property": "C29",
   "status": "proved",
   "theorems": [
    "C29_columns",
    "C29_linear_systems",
    "C29_exact_for_polynomials",
    "C29_second_run"
   ],
   "note": ""
  },
  {
   "property": "C30",
   "status": "proved",
   "theorems": [
    "C30_time_stamps",
    "C30_same_length_refuted"
   ],
   "note": ""
  },
  {
   "property": "C31",
   "status": "proved",
   "theorems": [
    "C31_intersection_iff",
    "C31_sound",
    "C31_complete",
    "C31_symmetric",
    "C31_overlap_refuted",
    "C31_once_refuted"
   ],
   "note": ""
  },
  {
   "property": "C32",
   "status": "proved",
   "theorems": [
    "C32_read",
    "C32_returns",
    "C32_no_header",
    "C32_no_data",
    "C32_local",
    "C32_note_refuted",
    "C32_whole_refuted",
    "C32_factors",
    "C32_rpm_refuted",
    "C32_optional_refuted",
    "C32_torque_refuted",
    "C32_shaft_number_refuted",
    "C32_simple",
    "C32_materials",
    "C32_model_returns",
    "C32_disks",
    "C32_shafts",
    "C32_rpm_factor"
   ],
   "note": ""
  },
  {
   "property": "C33",
   "status": "proved",
   "theorems": [
    "C33_section",
    "C33_section_mass",
    "C33_section_errors",
    "C33_from_section",
    "C33_mesh_independent",
    "C33_from_section_accepts",
    "C33_from_section_rejects",
    "C33_defaults_refuted",
    "C33_link_refuted"
   ],
   "note": ""
  },
  {
   "property": "C34",
   "status": "proved",
   "theorems": [
    "C34_convergence",
    "C34_refine_accepts",
    "C34_supports_refuted",
    "C34_loads_dropped_refuted",
    "C34_tapered_refuted",
    "C34_layers_refuted",
    "C34_zero_frequency_refuted"
   ],
   "note": ""
  },
  {
   "property": "C35",
   "status": "proved",
   "theorems": [
    "C35_remove_dofs",
    "C35_remove_rejected_iff",
    "C35_remove_default",
    "C35_conversion",
    "C35_conversion_gyro_refuted"
   ],
   "note": ""
  },
  {
   "property": "C36",
   "status": "proved",
   "theorems": [
    "C36_axes",
    "C36_kappa",
    "C36_circle",
    "C36_whirl_label",
    "C36_backward_label_refuted",
    "C36_scaling",
    "C36_major_point",
    "C36_axis_vectors"
   ],
   "note": ""
  },
  {
   "property": "C37",
   "status": "proved",
   "theorems": [
    "C37_modal_labels",
    "C37_order_irrelevant",
    "C37_shape_labels",
    "C37_labels_agree",
    "C37_labels_agree_refuted",
    "C37_colours_distinct",
    "C37_mode_kind",
    "C37_kind_scaling_refuted"
   ],
   "note": ""
  },
  {
   "property": "C38",
   "status": "proved",
   "theorems": [
    "C38_element_cubics",
    "C38_through_nodes",
    "C38_rigid_straight",
    "C38_normalized",
    "C38_normalize_fails_iff",
    "C38_normalize_supports_refuted"
   ],
   "note": ""
  },
  {
   "property": "C39",
   "status": "proved",
   "theorems": [
    "C39_probe_accepted_iff",
    "C39_probe_contents",
    "C39_time_probe",
    "C39_linked_shaft_node_refuted",
    "C39_forced_amplitude_bound",
    "C39_forced_circular",
    "C39_forced_amplitude_refuted",
    "C39_forced_phase_refuted",
    "C39_forced_support_refuted",
    "C39_axis_at_angle",
    "C39_axis_at_angle_refuted"
   ],
   "note": ""
  },
  {
   "property": "C40",
   "status": "proved",
   "theorems": [
    "C40_no_contact",
    "C40_contact",
    "C40_elastic_and_damping",
    "C40_defined_iff",
    "C40_push_only_refuted"
   ],
   "note": ""
  },
  {
   "property": "C41",
   "status": "proved",
   "theorems": [
    "C41_magnitude",
    "C41_tangential_iff",
    "C41_opposes_sliding_refuted",
    "C41_torque_refuted"
   ],
   "note": ""
  },
  {
   "property": "C42",
   "status": "proved",
   "theorems": [
    "C42_flex_equilibrium",
    "C42_combined_is_sum",
    "C42_torques",
    "C42_combined_torque_refuted",
    "C42_angular_periodic",
    "C42_aligned_no_force",
    "C42_parallel_arms",
    "C42_opposite_offset_same_force",
    "C42_parallel_periodic_refuted",
    "C42_rigid_equilibrium",
    "C42_rigid_history_refuted"
   ],
   "note": ""
  },
  {
   "property": "C43",
   "status": "proved",
   "theorems": [
    "C43_coefficients",
    "C43_depth_limit",
    "C43_compliance_refuted",
    "C43_softening",
    "C43_stiffening_refuted",
    "C43_mayes_bounds",
    "C43_zero_depth_no_breathing",
    "C43_gasch_refuted",
    "C43_translation_no_force",
    "C43_tilt_refuted",
    "C43_axial_refuted",
    "C43_open_definite_refuted"
   ],
   "note": ""
  },
  {
   "property": "C44",
   "status": "proved",
   "theorems": [
    "C44_equilibrium",
    "C44_load",
    "C44_round_trips",
    "C44_roots_exist",
    "C44_load_monotone",
    "C44_rest",
    "C44_backward_refuted",
    "C44_object",
    "C44_force_refuted",
    "C44_both_given_refuted"
   ],
   "note": ""
  },
  {
   "property": "C45",
   "status": "proved",
   "theorems": [
    "C45_rotor_surface",
    "C45_film_thickness",
    "C45_rotor_inside",
    "C45_rotor_outside_refuted",
    "C45_elliptical",
    "C45_wear",
    "C45_wear_refuted",
    "C45_pressure",
    "C45_move",
    "C45_move_back",
    "C45_move_refuted"
   ],
   "note": ""
  },
  {
   "property": "C46",
   "status": "proved",
   "theorems": [
    "C46_system",
    "C46_flow_around",
    "C46_flow_along",
    "C46_flow_sign",
    "C46_monotone",
    "C46_no_drag_bounds",
    "C46_pressure",
    "C46_cylindrical",
    "C46_linear",
    "C46_ring_balance",
    "C46_conservation_refuted"
   ],
   "note": ""
  },
  {
   "property": "C47",
   "status": "proved",
   "theorems": [
    "C47_material_samples",
    "C47_point_mass_samples",
    "C47_shaft_samples",
    "C47_material_random",
    "C47_short_list",
    "C47_equal_lengths_refuted",
    "C47_disk_samples",
    "C47_disk_samples_converse",
    "C47_disk_colour_refuted",
    "C47_disk_geometry",
    "C47_geometry_material_list_refuted",
    "C47_shaft_right_default",
    "C47_assigned_diameter_refuted",
    "C47_shared_list_refuted",
    "C47_plot_refuted",
    "C47_bearing_samples",
    "C47_bearing_tables",
    "C47_bearing_init",
    "C47_bearing_mixed_refuted",
    "C47_rotor_init",
    "C47_rotor_accepted",
    "C47_rotor_not_random",
    "C47_rotor_sizes",
    "C47_rotor_reuse_refuted",
    "C47_rotor_iteration",
    "C47_freq_response",
    "C47_unbalance_one_node",
    "C47_unbalance_short_refuted",
    "C47_unbalance_modes_refuted",
    "C47_unbalance_fixed",
    "C47_unbalance_rows_per_node_refuted",
    "C47_unbalance_rows_per_sample_refuted",
    "C47_time_response",
    "C47_time_axis_refuted"
   ],
   "note": ""
  },
  {
   "property": "C48",
   "status": "proved",
   "theorems": [
    "C48_equilibrium",
    "C48_reactions",
    "C48_diagrams",
    "C48_weights",
    "C48_reaction_tags",
    "C48_solvable",
    "C48_no_bearing",
    "C48_single_element_refuted",
    "C48_disks_overwritten_refuted",
    "C48_diagrams_cones",
    "C48_cone_shear_refuted"
   ],
   "note": ""
  },
  {
   "property": "C49",
   "status": "proved",
   "theorems": [
    "C49_disk_accel_opposite_sign",
    "C49_disk_accel_refuted",
    "C49_accel_stiffness_opposite_sign",
    "C49_accel_stiffness_refuted"
   ],
   "note": ""
  },
  {
   "property": "C50",
   "status": "proved",
   "theorems": [
    "C50_axial_mass_cylinder",
    "C50_axial_mass_refuted"
   ],
   "note": ""
  },
  {
   "property": "C51",
   "status": "proved",
   "theorems": [
    "C51_material_eq_refl",
    "C51_material_eq_symmetric_refuted",
    "C51_equal_means_close",
    "C51_name_not_compared",
    "C51_transitive_refuted"
   ],
   "note": ""
  },
  {
   "property": "C52",
   "status": "proved",
   "theorems": [
    "C52_save_states",
    "C52_crash_safe_refuted"
   ],
   "note": ""
  },
  {
   "property": "C53",
   "status": "proved",
   "theorems": [
    "C53_serial_saves",
    "C53_concurrent_saves_refuted"
   ],
   "note": ""
  },
  {
   "property": "C54",
   "status": "proved",
   "theorems": [
    "C54_point_mass_init",
    "C54_point_mass6_init",
    "C54_point_mass_energy"
   ],
   "note": ""
  },
  {
   "property": "C55",
   "status": "proved",
   "theorems": [
    "C55_ball_bearing",
    "C55_ball_stiffness_positive_iff",
    "C55_roller_stiffness_positive_iff",
    "C55_positive_stiffness_refuted"
   ],
   "note": ""
  },
  {
   "property": "C56",
   "status": "proved",
   "theorems": [
    "C56_closed_loop_stiffness",
    "C56_stable_gain",
    "C56_validation_refuted"
   ],
   "note": ""
  },
  {
   "property": "C61",
   "status": "proved",
   "theorems": [
    "C61_eigen_order",
    "C61_conjugate_pairs"
   ],
   "note": ""
  },
  {
   "property": "C62",
   "status": "proved",
   "theorems": [
    "C62_system_matrices",
    "C62_integrate_system",
    "C62_integration_succeeds",
    "C62_acceleration"
   ],
   "note": ""
  },
  {
   "property": "C63",
   "status": "proved",
   "theorems": [
    "C63_kinematics",
    "C63_inertia_force",
    "C63_constant_speed",
    "C63_same_sense_refuted"
   ],
   "note": ""
  },
  {
   "property": "C64",
   "status": "proved",
   "theorems": [
    "C64_projected_motion",
    "C64_exact_when_12",
    "C64_modes_independent",
    "C64_response",
    "C64_crack_rest",
    "C64_stage_time_refuted"
   ],
   "note": ""
  },
  {
   "property": "C65",
   "status": "proved",
   "theorems": [
    "C65_moment_sum",
    "C65_interior_moment_refuted"
   ],
   "note": ""
  },
  {
   "property": "C66",
   "status": "proved",
   "theorems": [
    "C66_modal_relations",
    "C66_list_length"
   ],
   "note": ""
  },
  {
   "property": "C57",
   "status": "proved",
   "theorems": [
    "C57_coefficients",
    "C57_zero_speed_refuted",
    "C57_backward_refuted",
    "C57_attitude_refuted"
   ],
   "note": ""
  },
  {
   "property": "C67",
   "status": "proved",
   "theorems": [
    "C67_short_pressure",
    "C67_short_force",
    "C67_long_pressure",
    "C67_long_force"
   ],
   "note": ""
  },
  {
   "property": "C68",
   "status": "proved",
   "theorems": [
    "C68_stiffness",
    "C68_damping",
    "C68_dissipates"
   ],
   "note": ""
  },
  {
   "property": "C69",
   "status": "proved",
   "theorems": [
    "C69_force",
    "C69_best_fit",
    "C69_succeeds"
   ],
   "note": ""
  },
  {
   "property": "C60",
   "status": "proved",
   "theorems": [
    "C60_construction",
    "C60_named_twice",
    "C60_effects",
    "C60_earlier_rotors",
    "C60_tagged_reuse",
    "C60_again",
    "C60_default_tag_sticks",
    "C60_reuse_refuted",
    "C60_earlier_rotors_refuted"
   ],
   "note": ""
  },
  {
   "property": "C58",
   "status": "proved",
   "theorems": [
    "C58_unsaveable",
    "C58_element_round_trip",
    "C58_load_takes_first",
    "C58_load_last_saved_refuted",
    "C58_cylindrical_not_loadable",
    "C58_rotor_round_trip",
    "C58_failed_save",
    "C58_tag_lost_refuted",
    "C58_empty_tag_refuted",
    "C58_failed_save_refuted"
   ],
   "note": ""
  },
  {
   "property": "C59",
   "status": "proved",
   "theorems": [
    "C59_forward_whirl",
    "C59_backward_whirl",
    "C59_exists",
    "C59_critical_speed",
    "C59_six_dof_refuted",
    "C59_backward_refuted"
   ],
   "note": ""
  },
  {
   "property": "C70",
   "status": "proved",
   "theorems": [
    "C70_modes",
    "C70_history_free",
    "C70_steady",
    "C70_odd_raises"
   ],
   "note": ""
  },
  {
   "property": "C71",
   "status": "proved",
   "theorems": [
    "C71_one_mode",
    "C71_critical",
    "C71_range"
   ],
   "note": ""
  },
  {
   "property": "C72",
   "status": "proved",
   "theorems": [
    "C72_rows",
    "C72_entries",
    "C72_rows_independent",
    "C72_wrong_count"
   ],
   "note": ""
  },
  {
   "property": "C73",
   "status": "proved",
   "theorems": [
    "C73_clustering",
    "C73_damping_floor"
   ],
   "note": ""
  },
  {
   "property": "C74",
   "status": "proved",
   "theorems": [
    "C74_rotor",
    "C74_map",
    "C74_default_range",
    "C74_points",
    "C74_support_refuted",
    "C74_odd_modes_refuted"
   ],
   "note": ""
  },
  {
   "property": "C75",
   "status": "proved",
   "theorems": [
    "C75_default_refuted",
    "C75_entries",
    "C75_rotor",
    "C75_raises"
   ],
   "note": ""
  },
  {
   "property": "C76",
   "status": "proved",
   "theorems": [
    "C76_numbering",
    "C76_nodes_apart",
    "C76_tags",
    "C76_in_place",
    "C76_repeated_refuted",
    "C76_matrices",
    "C76_elements",
    "C76_blocks",
    "C76_one_shaft",
    "C76_tag_refuted",
    "C76_six_refuted",
    "C76_no_bearing_refuted",
    "C76_attached",
    "C76_loops_refuted",
    "C76_same_tag_refuted"
   ],
   "note": ""
  },
  {
   "property": "C77",
   "status": "proved",
   "theorems": [
    "C77_unlinked",
    "C77_start_refuted",
    "C77_positions",
    "C77_length_refuted",
    "C77_centre",
    "C77_centre_near",
    "C77_centre_refuted",
    "C77_single_element_refuted",
    "C77_three_shafts_refuted",
    "C77_mesh_refuted"
   ],
   "note": ""
  },
  {
   "property": "C78",
   "status": "proved",
   "theorems": [
    "C78_reflexive",
    "C78_kinds",
    "C78_bearings",
    "C78_bearings_end",
    "C78_bearings_raise",
    "C78_tables_raise",
    "C78_hash",
    "C78_cylindrical",
    "C78_hash_refuted",
    "C78_shafts",
    "C78_shaft_matrices",
    "C78_stiffness_refuted",
    "C78_class_refuted",
    "C78_disks",
    "C78_disk_symmetry_refuted",
    "C78_disk_transitivity_refuted",
    "C78_point_masses",
    "C78_rotors",
    "C78_loaded",
    "C78_rotors_raise",
    "C78_loaded_refuted",
    "C78_rotor_reflexivity_refuted"
   ],
   "note": ""
  },
  {
   "property": "C79",
   "status": "proved",
   "theorems": [
    "C79_matrices",
    "C79_raises",
    "C79_two_ball_bearings_refuted"
   ],
   "note": ""
  },
  {
   "property": "C80",
   "status": "proved",
   "theorems": [
    "C80_direct",
    "C80_basis",
    "C80_support_raises",
    "C80_more_modes",
    "C80_motion",
    "C80_all_modes",
    "C80_given",
    "C80_given_refused",
    "C80_eigenvectors_exist",
    "C80_succeeds",
    "C80_modes_exist"
   ],
   "note": ""
  },
  {
   "property": "C81",
   "status": "proved",
   "theorems": [
    "C81_exact",
    "C81_motion_exists",
    "C81_superposition",
    "C81_energy",
    "C81_succeeds",
    "C81_refused",
    "C81_only_first_step",
    "C81_equilibrium",
    "C81_newmark",
    "C81_keywords_ignored"
   ],
   "note": ""
  },
  {
   "property": "C82",
   "status": "proved",
   "theorems": [
    "C82_loaded",
    "C82_round_trip",
    "C82_other_sections",
    "C82_second_class",
    "C82_zero_dim",
    "C82_campbell",
    "C82_spoiled",
    "C82_ucs_refuted",
    "C82_complex_refuted",
    "C82_modal_refuted",
    "C82_rotor_file",
    "C82_rotor_file_overwrites_refuted",
    "C82_shared_rotor_refuted"
   ],
   "note": ""
  },
  {
   "property": "C83",
   "status": "proved",
   "theorems": [
    "C83_element",
    "C83_several_speeds_refuted",
    "C83_no_speeds_refuted",
    "C83_default_oil_flow_refuted",
    "C83_number_as_speed_refuted",
    "C83_matches_iff",
    "C83_units_refuted"
   ],
   "note": ""
  },
  {
   "property": "C84",
   "status": "proved",
   "theorems": [
    "C84_film",
    "C84_three_lobes_refuted",
    "C84_flooded",
    "C84_no_wedge",
    "C84_symmetric",
    "C84_pads",
    "C84_pads_refuted",
    "C84_cold_refuted",
    "C84_groove_number_refuted",
    "C84_forces",
    "C84_force_value",
    "C84_centred",
    "C84_equilibrium"
   ],
   "note": ""
  },
  {
   "property": "C85",
   "status": "proved",
   "theorems": [
    "C85_differences",
    "C85_affine",
    "C85_kyy_refuted",
    "C85_load_along_x_refuted",
    "C85_first_number",
    "C85_straight_refuted"
   ],
   "note": ""
  },
  {
   "property": "C86",
   "status": "proved",
   "theorems": [
    "C86_supply_shared",
    "C86_starved",
    "C86_flooded",
    "C86_flooded_two",
    "C86_flooded_upstream_refuted"
   ],
   "note": ""
  },
  {
   "property": "C87",
   "status": "proved",
   "theorems": [
    "C87_bearing",
    "C87_rotor",
    "C87_massless_same",
    "C87_mass_gone",
    "C87_six_dof_fails",
    "C87_mass_kept_refuted",
    "C87_always_refuted"
   ],
   "note": ""
  },
  {
   "property": "C88",
   "status": "proved",
   "theorems": [
    "C88_element",
    "C88_short",
    "C88_long",
    "C88_one_speed",
    "C88_first_failure",
    "C88_exit_refuted",
    "C88_no_speeds",
    "C88_unordered_refuted",
    "C88_from_eccentricity",
    "C88_from_load"
   ],
   "note": ""
  },
  {
   "property": "C89",
   "status": "proved",
   "theorems": [
    "C89_from_table",
    "C89_matrices",
    "C89_long_matrices",
    "C89_builds",
    "C89_toml",
    "C89_toml_drops_link"
   ],
   "note": ""
  },
  {
   "property": "C90",
   "status": "proved",
   "theorems": [
    "C90_warns_iff",
    "C90_freq_response",
    "C90_forced",
    "C90_campbell",
    "C90_rotor",
    "C90_no_tables",
    "C90_empty_range",
    "C90_one_speed_refuted"
   ],
   "note": ""
  },
  {
   "property": "C91",
   "status": "proved",
   "theorems": [
    "C91_first",
    "C91_bearings",
    "C91_again_refuted",
    "C91_calls_old",
    "C91_calls_new",
    "C91_static_fails",
    "C91_without",
    "C91_without_disks"
   ],
   "note": ""
  },
  {
   "property": "C92",
   "status": "proved",
   "theorems": [
    "C92_holds",
    "C92_saved",
    "C92_state_matrix",
    "C92_rebuild",
    "C92_determines",
    "C92_speed_unused",
    "C92_spinning_refuted"
   ],
   "note": ""
  },
  {
   "property": "C93",
   "status": "proved",
   "theorems": [
    "C93_only_underscores",
    "C93_no_capitals",
    "C93_small_unchanged",
    "C93_idempotent",
    "C93_words",
    "C93_acronym",
    "C93_distinct_refuted",
    "C93_letters_refuted"
   ],
   "note": ""
  }
 ]
}