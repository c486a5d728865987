{
 "claims": [
  {
   "property": "C01",
   "status": "proved",
   "theorems": [
    "C01_interpolate_derivative"
   ],
   "note": ""
  },
  {
   "property": "C02",
   "status": "proved",
   "theorems": [
    "C02_table_hits_knots",
    "C02_table_clamps",
    "C02_table_between",
    "C02_table_continuous"
   ],
   "note": ""
  },
  {
   "property": "C03",
   "status": "partial",
   "theorems": [
    "C03_valid_table_in_range",
    "C03_generic_piecewise_valid_refuted",
    "C03_generic_piecewise_working_size"
   ],
   "note": "The full claim is false of the code for GenericPiecewiseInterpolate (refuted with a witness); it holds for the three table interpolates, and the size that does work is proved."
  },
  {
   "property": "C04",
   "status": "proved",
   "theorems": [
    "C04_newton_returns_iff_converged",
    "C04_returned_residual_is_at_solution",
    "C04_miter_zero_refuted",
    "C04_last_iteration_refuted"
   ],
   "note": "Holds for iteration limits >= 1 as stated. Two theorems with suffix _refuted record that miter = 0 returns unconverged and that convergence on the last permitted iteration is reported as failure."
  },
  {
   "property": "C05",
   "status": "proved",
   "theorems": [
    "C05_newton_terminates",
    "C05_newton_bounded_work"
   ],
   "note": ""
  },
  {
   "property": "C06",
   "status": "proved",
   "theorems": [
    "C06_substeps_cover_step",
    "C06_end_is_requested_load",
    "C06_full_step_when_possible"
   ],
   "note": ""
  },
  {
   "property": "C07",
   "status": "proved",
   "theorems": [
    "C07_substep_terminates",
    "C07_substep_bounded_work"
   ],
   "note": ""
  },
  {
   "property": "C08",
   "status": "proved",
   "theorems": [
    "C08_variables_disjoint",
    "C08_variables_in_bounds",
    "C08_storage_covered",
    "C08_size_is_sum",
    "C08_write_read_frame"
   ],
   "note": ""
  },
  {
   "property": "C09",
   "status": "proved",
   "theorems": [
    "C09_add_duplicate_throws",
    "C09_add_new_succeeds",
    "C09_get_missing_throws",
    "C09_get_present",
    "C09_set_iff_get"
   ],
   "note": ""
  },
  {
   "property": "C10",
   "status": "partial",
   "theorems": [
    "C10_reorder_values_refuted",
    "C10_reorder_partial"
   ],
   "note": "False of the code: reorder leaves the location map stale (refuted). Proved: the names and the stored multiset of the reordered object as stated in C10_reorder_partial."
  },
  {
   "property": "C11",
   "status": "proved",
   "theorems": [
    "C11_subset_preserves_values",
    "C11_subset_missing_fails",
    "C11_split_preserves_values",
    "C11_split_not_prefix_throws",
    "C11_copy_blank",
    "C11_union_preserves_values",
    "C11_deepcopy",
    "C11_scalar_multiply",
    "C11_plus"
   ],
   "note": ""
  },
  {
   "property": "C12",
   "status": "proved",
   "theorems": [
    "C12_save_reload",
    "C12_save_reload_same",
    "C12_second_reload_same",
    "C12_blank_string_refuted"
   ],
   "note": "Proved for objects whose string parameters are not blank; doubles are those denoted by six significant digits (see C13). The blank-string crash is recorded in C12_blank_string_refuted."
  },
  {
   "property": "C13",
   "status": "partial",
   "theorems": [
    "C13_double_reload_refuted",
    "C13_double_reload_close_partial",
    "C13_short_double_exact_partial",
    "C13_int_reload",
    "C13_size_reload"
   ],
   "note": "False of the code (six significant digits, refuted with 1234567). Proved: relative error at most 5e-6, exact for values of at most six digits, integers exact."
  },
  {
   "property": "C14",
   "status": "partial",
   "theorems": [
    "C14_unknown_parameter",
    "C14_known_parameter_assigned",
    "C14_unknown_child_reported",
    "C14_missing_parameters_reported",
    "C14_loaded_is_complete",
    "C14_unregistered_refuted",
    "C14_trailing_garbage_refuted"
   ],
   "note": "Unregistered types raise std::bad_function_call instead (refuted) and text after a number is ignored (refuted). Unknown and missing parameters are proved."
  },
  {
   "property": "C15",
   "status": "proved",
   "theorems": [
    "C15_symmetric_round_trip",
    "C15_skew_round_trip",
    "C15_isometry",
    "C15_skew_contraction",
    "C15_trace",
    "C15_second_invariant",
    "C15_deviator_projection",
    "C15_fourth_order_action",
    "C15_fourth_order_round_trip",
    "C15_fourth_order_product",
    "C15_symskew_round_trip",
    "C15_skewsym_round_trip",
    "C15_skewsym_action",
    "C15_symskew_action_half"
   ],
   "note": ""
  },
  {
   "property": "C16",
   "status": "proved",
   "theorems": [
    "C16_isotropic_inverse",
    "C16_isotropic_action",
    "C16_cubic_inverse"
   ],
   "note": ""
  },
  {
   "property": "C17",
   "status": "proved",
   "theorems": [
    "C17_pair_gives_material",
    "C17_pairs_agree",
    "C17_inputs_reproduced",
    "C17_constructor"
   ],
   "note": ""
  },
  {
   "property": "C18",
   "status": "partial",
   "theorems": [
    "C18_isotropic",
    "C18_cubic",
    "C18_cubic_moduli_isotropic",
    "C18_transverse_refuted",
    "C18_transverse_partial"
   ],
   "note": "Proved for isotropic and cubic stiffness. False for the transversely isotropic class: refuted, with the exact condition (C11 = C12) under which it holds."
  },
  {
   "property": "C19",
   "status": "proved",
   "theorems": [
    "C19_isokinj2",
    "C19_isoj2",
    "C19_isokinj2i1",
    "C19_isoj2i1",
    "C19_nondeviatoric_backstress_refuted",
    "C19_negative_h_refuted",
    "C19_small_exponent_refuted"
   ],
   "note": "Proved for all four surface classes on deviatoric backstress and relative stress above machine epsilon (the non-smooth point); the I1 surfaces need h >= 0 and h l (l-1) >= 0. The *_refuted theorems record what goes wrong outside: non-deviatoric backstress, negative h, exponent below one."
  },
  {
   "property": "C20",
   "status": "proved",
   "theorems": [
    "C20_j2_ignores_pressure",
    "C20_j2_direction_ignores_pressure",
    "C20_i1_increases_with_pressure",
    "C20_i1_deviatoric",
    "C20_uniaxial"
   ],
   "note": ""
  },
  {
   "property": "C21",
   "status": "proved",
   "theorems": [
    "C21_linear",
    "C21_interpolated",
    "C21_voce",
    "C21_power_law",
    "C21_power_law_at_zero_refuted",
    "C21_combined_isotropic",
    "C21_linear_kinematic",
    "C21_combined"
   ],
   "note": "Every associative rule. The power law is exact for positive plastic strain; at zero it reports -1e15 whatever the exponent, recorded in C21_power_law_at_zero_refuted."
  },
  {
   "property": "C22",
   "status": "partial",
   "theorems": [
    "C22_gamma_models",
    "C22_chaboche_q",
    "C22_chaboche_h",
    "C22_chaboche_time",
    "C22_chaboche_temp",
    "C22_recovery_q",
    "C22_recovery_h",
    "C22_recovery_temp",
    "C22_recovery_time_partial",
    "C22_recovery_time_refuted"
   ],
   "note": "All derivatives of Chaboche and of ChabocheVoceRecovery proved, except the (0,0) entry of dh_da_time of ChabocheVoceRecovery, which has the wrong sign below Rmin (refuted) and is right above."
  },
  {
   "property": "C23",
   "status": "proved",
   "theorems": [
    "C23_chaboche_reachable",
    "C23_recovery_reachable",
    "C23_surface_domain",
    "C23_rate"
   ],
   "note": "Invariant of every sequence of backward Euler steps with nonnegative material coefficients."
  },
  {
   "property": "C24",
   "status": "proved",
   "theorems": [
    "C24_associative",
    "C24_nonassociative",
    "C24_size_check",
    "C24_normality",
    "C24_j2_isotropic",
    "C24_j2_chaboche"
   ],
   "note": ""
  },
  {
   "property": "C25",
   "status": "proved",
   "theorems": [
    "C25_perfect_plasticity",
    "C25_rate_independent",
    "C25_general_integrator",
    "C25_used_by_solver"
   ],
   "note": ""
  },
  {
   "property": "C26",
   "status": "partial",
   "theorems": [
    "C26_plastic_step",
    "C26_plastic_strain",
    "C26_perfect_plasticity",
    "C26_general_integrator",
    "C26_elastic_step",
    "C26_elastic_admissible_perfect",
    "C26_elastic_admissible",
    "C26_elastic_thermal_refuted",
    "C26_multiplier_sign_refuted"
   ],
   "note": "Equations of plastic, perfectly plastic and integrator steps proved with the solver tolerance explicit; elastic steps admissible for perfect plasticity and, at constant temperature, for the hardening model. Refuted: elastic steps with changing temperature, and the sign of the multiplier."
  },
  {
   "property": "C27",
   "status": "partial",
   "theorems": [
    "C27_rate_independent_one_step",
    "C27_perfect_plasticity_one_step",
    "C27_elastic_step",
    "C27_general_integrator",
    "C27_elasticity",
    "C27_two_plastic_substeps_refuted"
   ],
   "note": "Proved for one step of every model and for any number of substeps of the general integrator (rates of solution curves of the update equations; existence of the curve is a hypothesis). False with two or more plastic substeps of a rate independent model (refuted)."
  },
  {
   "property": "C28",
   "status": "proved",
   "theorems": [
    "C28_power_law",
    "C28_fluidity",
    "C28_perzyna",
    "C28_linear_viscous",
    "C28_chaboche",
    "C28_yaguchi",
    "C28_yaguchi_nondeviatoric_refuted",
    "C28_yaguchi_stays_deviatoric",
    "C28_total_rates",
    "C28_size_check",
    "C28_j2_perzyna",
    "C28_j2_chaboche"
   ],
   "note": "All four rules and TVPFlowRule, off the switching points of the code (yield surface, thresholds). The dependence of the Yaguchi recovery derivative on deviatoric backstresses is recorded in C28_yaguchi_nondeviatoric_refuted, and the invariant that makes it harmless in C28_yaguchi_stays_deviatoric."
  },
  {
   "property": "C29",
   "status": "partial",
   "theorems": [
    "C29_rate",
    "C29_history",
    "C29_strain_rate",
    "C29_stress_rate",
    "C29_derivatives",
    "C29_time_rate_refuted",
    "C29_own_rate_refuted"
   ],
   "note": "Proved: total rate, strain rate, stress rate, history layout, derivatives, for any number of rules. Refuted: each component hardening with its own rate, and additivity of the rates per unit time."
  },
  {
   "property": "C30",
   "status": "proved",
   "theorems": [
    "C30_perzyna",
    "C30_chaboche",
    "C30_yaguchi",
    "C30_elastic_perzyna",
    "C30_elastic_chaboche",
    "C30_dissipation",
    "C30_linear_viscous_uniaxial"
   ],
   "note": ""
  },
  {
   "property": "C31",
   "status": "partial",
   "theorems": [
    "C31_power_law",
    "C31_normalized_power_law",
    "C31_blackburn",
    "C31_blackburn_temperature",
    "C31_swindeman",
    "C31_region_km",
    "C31_norton_bailey",
    "C31_mukherjee",
    "C31_generic_refuted",
    "C31_generic_partial",
    "C31_minimum_creep_rate_225_partial",
    "C31_power_law_temperature_refuted",
    "C31_blackburn_temperature_refuted",
    "C31_norton_bailey_clamped_refuted"
   ],
   "note": "Exact for the power, normalised power, Blackburn, Swindeman, region, Norton-Bailey and Mukherjee laws away from the switching points. False for GenericCreep, for the temperature derivative of laws with temperature dependent coefficients and below the Norton-Bailey clamp (refuted theorems); for the 2.25Cr-1Mo law it is the derivative of a rate with rounded constants."
  },
  {
   "property": "C32",
   "status": "partial",
   "theorems": [
    "C32_one_cut",
    "C32_below_second_cut_partial",
    "C32_unique_region",
    "C32_beyond_second_cut_refuted",
    "C32_first_cut_refuted",
    "C32_no_cuts"
   ],
   "note": "True with no cut or one cut; false of the code from the second cut on (refuted theorems characterise the index it returns)."
  },
  {
   "property": "C33",
   "status": "proved",
   "theorems": [
    "C33_derivatives",
    "C33_derivatives_small_strain",
    "C33_time_temperature",
    "C33_incompressible",
    "C33_equivalent_rate",
    "C33_dissipation",
    "C33_uniaxial",
    "C33_pressure_independent",
    "C33_update",
    "C33_update_jacobian",
    "C33_update_tangent"
   ],
   "note": "Derivatives, shape of the rate and the implicit update with Jacobian and tangent, for any scalar law. The tangent theorem is about curves of solutions with constant residual."
  },
  {
   "property": "C34",
   "status": "partial",
   "theorems": [
    "C34_rate_form",
    "C34_classical_creep",
    "C34_modular_creep",
    "C34_larson_miller",
    "C34_combined",
    "C34_combined_increment",
    "C34_standard",
    "C34_equivalent_plastic_strain",
    "C34_power_law",
    "C34_exponential_work",
    "C34_work_partial",
    "C34_work_negative_refuted",
    "C34_work_zero_refuted"
   ],
   "note": "Exact for the rate form, classical, modular, Larson-Miller, combined, standard, power law and exponential work laws at smooth points; exact for the work law at positive plastic work; refuted for negative and zero work."
  },
  {
   "property": "C35",
   "status": "partial",
   "theorems": [
    "C35_von_mises_value",
    "C35_von_mises_scale",
    "C35_von_mises",
    "C35_von_mises_homogeneous",
    "C35_mean",
    "C35_mean_homogeneous",
    "C35_huddleston_value",
    "C35_huddleston",
    "C35_huddleston_homogeneous",
    "C35_principal_value",
    "C35_principal",
    "C35_principal_homogeneous",
    "C35_eigen_contract_met",
    "C35_max_value",
    "C35_max_defined",
    "C35_max",
    "C35_max_homogeneous",
    "C35_sum",
    "C35_sum_homogeneous",
    "C35_sum_value",
    "C35_max_empty_refuted",
    "C35_huddleston_hydrostatic_refuted"
   ],
   "note": "Values, homogeneity and gradients for all measures at smooth points. The gradient is refuted for Huddleston at hydrostatic stress and the value for an empty maximum. Eigenvalue routines enter by a contract that is shown satisfiable."
  },
  {
   "property": "C36",
   "status": "proved",
   "theorems": [
    "C36_step_equations",
    "C36_jacobian",
    "C36_tangent_formula",
    "C36_consistent_tangent",
    "C36_start_value"
   ],
   "note": "For every base model with exact tangent and every law with exact derivatives. The tangent theorem is about curves of solutions with constant residual."
  },
  {
   "property": "C37",
   "status": "partial",
   "theorems": [
    "C37_removed_response",
    "C37_removed_next",
    "C37_irreversible",
    "C37_energy",
    "C37_delete_flag",
    "C37_delete_flag_refuted",
    "C37_threshold_above_one_refuted"
   ],
   "note": "Irreversible for thresholds up to 1, with the energy transfer; refuted above 1 and for the deletion flag at 1."
  },
  {
   "property": "C38",
   "status": "partial",
   "theorems": [
    "C38_step_equations",
    "C38_tangent_series",
    "C38_tangent_inverse",
    "C38_jacobian",
    "C38_consistent_tangent",
    "C38_layout_refuted",
    "C38_initial_state_refuted",
    "C38_layout_without_history"
   ],
   "note": "Step equations, Jacobian, tangent and energies hold for every base model and creep routine with exact tangents; the declared history layout and initial state are refuted."
  },
  {
   "property": "C39",
   "status": "proved",
   "theorems": [
    "C39_roundtrip",
    "C39_inverse_stress",
    "C39_inverse_time",
    "C39_life_decreases",
    "C39_stress_decreases",
    "C39_derivative",
    "C39_functions"
   ],
   "note": "Round trip up to the solver tolerance, exact inverses for exact solutions, monotonicity, derivative along continuous solution branches."
  },
  {
   "property": "C40",
   "status": "partial",
   "theorems": [
    "C40_failure",
    "C40_success_partial",
    "C40_success_refuted",
    "C40_sequence",
    "C40_nstore",
    "C40_alpha_refuted"
   ],
   "note": "Failures always flagged and the flag sticks over sequences; success is not flagged by three calls and -1 is ambiguous for alpha (refuted)."
  },
  {
   "property": "C41",
   "status": "partial",
   "theorems": [
    "C41_to_mandel",
    "C41_to_tensor",
    "C41_mandel_round_trip",
    "C41_tensor_round_trip",
    "C41_fourth_order",
    "C41_fourth_order_acts",
    "C41_points",
    "C41_failure_partial",
    "C41_failure_refuted"
   ],
   "note": "Conversions and equality with single points proved for every schedule; a failing point is not reported (refuted)."
  },
  {
   "property": "C42",
   "status": "proved",
   "theorems": [
    "C42_strain_energy",
    "C42_dissipation",
    "C42_dissipation_integrator",
    "C42_energy_balance",
    "C42_no_strain_no_work",
    "C42_elasticity",
    "C42_elastic_path_independent",
    "C42_elastic_history",
    "C42_thermal_dissipation_refuted"
   ],
   "note": "Proved for all updates at constant temperature; the thermal elastic step that reports negative dissipation is recorded as refuted."
  },
  {
   "property": "C43",
   "status": "proved",
   "theorems": [
    "C43_product_associative",
    "C43_left_identity",
    "C43_right_identity",
    "C43_inverse_right",
    "C43_inverse_left",
    "C43_orientation_inverse",
    "C43_orientation_inverse_left",
    "C43_inverses_agree",
    "C43_division",
    "C43_orientation_division",
    "C43_norm_multiplicative",
    "C43_norm_definite",
    "C43_unit_closed",
    "C43_product_matrix",
    "C43_normalized",
    "C43_normalized_direction",
    "C43_normalized_unchanged",
    "C43_matrix_proper",
    "C43_matrix_product",
    "C43_matrix_inverse",
    "C43_matrix_identity",
    "C43_matrix_determines",
    "C43_vector_matrix",
    "C43_vector_product",
    "C43_vector_inverse",
    "C43_vector_inner",
    "C43_vector_cross",
    "C43_tensor_product",
    "C43_symmetric_product",
    "C43_skew_product",
    "C43_random_unit"
   ],
   "note": "For every quaternion, respectively every unit quaternion."
  },
  {
   "property": "C44",
   "status": "proved",
   "theorems": [
    "C44_full",
    "C44_full_identity",
    "C44_full_inverse",
    "C44_inner",
    "C44_trace",
    "C44_transpose",
    "C44_symmetric_stays",
    "C44_skew_stays",
    "C44_products",
    "C44_symmetric_full",
    "C44_symmetric_inner",
    "C44_symmetric_trace",
    "C44_symmetric_identity",
    "C44_symmetric_inverse",
    "C44_symmetric_matrix",
    "C44_symmetric_matrix_inverse",
    "C44_skew_full",
    "C44_skew_vector",
    "C44_fourth",
    "C44_fourth_acts",
    "C44_mandel_fourth",
    "C44_mandel_fourth_acts"
   ],
   "note": "For vectors, full, symmetric and skew tensors, 6x6 matrices and fourth order tensors, for every unit quaternion."
  },
  {
   "property": "C45",
   "status": "partial",
   "theorems": [
    "C45_symsym_skew_commutator",
    "C45_sym_skewsym_commutator",
    "C45_special_symsym_sym",
    "C45_transform_fourth",
    "C45_symmetric_of_full",
    "C45_symmetric_round_trip",
    "C45_skew_of_full",
    "C45_skew_round_trip",
    "C45_parts_add_up",
    "C45_symmetric_of_skew",
    "C45_skew_of_symmetric",
    "C45_mixed_sums",
    "C45_product",
    "C45_mixed_products",
    "C45_vector_products",
    "C45_outer",
    "C45_normalize",
    "C45_contract",
    "C45_contract_symmetric",
    "C45_contract_symmetric_skew",
    "C45_contract_skew",
    "C45_norm_symmetric",
    "C45_trace",
    "C45_deviator",
    "C45_symmetric_product_part",
    "C45_symmetric_product_commuting",
    "C45_symmetric_product_refuted",
    "C45_skew_product_part",
    "C45_skew_square_zero",
    "C45_skew_product_refuted",
    "C45_symmetric_inverse",
    "C45_fourth_product",
    "C45_fourth_action",
    "C45_mixed_fourth_products",
    "C45_mixed_fourth_actions",
    "C45_mandel_action",
    "C45_mandel_product",
    "C45_mandel_transpose",
    "C45_dyadic",
    "C45_dyadic_skew",
    "C45_sixth_outer_k",
    "C45_sixth_outer_j",
    "C45_sixth_outer_i",
    "C45_sixth_contractions",
    "C45_middle_dot_after_refuted",
    "C45_middle_dot_before_refuted"
   ],
   "note": "Proved for every operator except Symmetric*Symmetric, Skew*Skew and the middle products, which are characterised and refuted."
  },
  {
   "property": "C46",
   "status": "partial",
   "theorems": [
    "C46_truesdell_update",
    "C46_jaumann_update",
    "C46_jaumann_no_spin",
    "C46_truesdell_tangent",
    "C46_jaumann_spin_tangent",
    "C46_jaumann_tangent_refuted"
   ],
   "note": "Stress update proved for both rates, tangents proved for the Truesdell rate and for the spin part of the Jaumann rate; the deformation tangent of the Jaumann rate is wrong in the code and refuted."
  },
  {
   "property": "C47",
   "status": "proved",
   "theorems": [
    "C47_regime_selected",
    "C47_activation_energy",
    "C47_faster_is_lower",
    "C47_missing_model_refuted"
   ],
   "note": "For lists with more models than boundaries; the out of range access otherwise is recorded as refuted."
  },
  {
   "property": "C48",
   "status": "proved",
   "theorems": [
    "C48_gcd",
    "C48_common_gcd",
    "C48_reduce_primitive",
    "C48_reduce_zero_refuted"
   ],
   "note": "Holds for every vector with a non-zero entry; the zero vector divides by zero and is recorded in C48_reduce_zero_refuted."
  },
  {
   "property": "C49",
   "status": "proved",
   "theorems": [
    "C49_polyval",
    "C49_differentiate_poly",
    "C49_poly_from_roots"
   ],
   "note": ""
  },
  {
   "property": "C50",
   "status": "proved",
   "theorems": [
    "C50_round_trip",
    "C50_unknown_rejected",
    "C50_degrees_scale"
   ],
   "note": ""
  },
  {
   "property": "C51",
   "status": "proved",
   "theorems": [
    "C51_diff_jac_affine",
    "C51_diff_jac_check_affine",
    "C51_diff_jac_limit"
   ],
   "note": ""
  },
  {
   "property": "C52",
   "status": "partial",
   "theorems": [
    "C52_derivative_size",
    "C52_derivative_blocks",
    "C52_derivative_succeeds",
    "C52_unravel",
    "C52_name_collision_refuted"
   ],
   "note": "Proved whenever the pair names are distinct; joining names with an underscore can collide, which is refuted with a witness."
  },
  {
   "property": "C53",
   "status": "proved",
   "theorems": [
    "C53_formatted_names_match_storage"
   ],
   "note": ""
  },
  {
   "property": "C54",
   "status": "proved",
   "theorems": [
    "C54_isotropic_energy",
    "C54_cubic_energy"
   ],
   "note": ""
  },
  {
   "property": "C55",
   "status": "proved",
   "theorems": [
    "C55_step",
    "C55_inelastic_strain",
    "C55_elastic",
    "C55_jacobian"
   ],
   "note": ""
  },
  {
   "property": "C56",
   "status": "proved",
   "theorems": [
    "C56_rate_laws",
    "C56_classical_rate",
    "C56_modular_rate",
    "C56_larson_miller_rate",
    "C56_standard",
    "C56_power_law",
    "C56_exponential_work",
    "C56_work",
    "C56_combined",
    "C56_update"
   ],
   "note": "For every law under the sign conditions of its parameters; for the update up to the solver residual."
  },
  {
   "property": "C57",
   "status": "partial",
   "theorems": [
    "C57_matrix",
    "C57_default_refuted",
    "C57_rodrigues_unit",
    "C57_rodrigues_back",
    "C57_rodrigues_forth_partial",
    "C57_rodrigues_half_turn_refuted",
    "C57_axis_angle_unit",
    "C57_axis_angle",
    "C57_axis_angle_degrees",
    "C57_axis_angle_forth",
    "C57_axis_angle_back",
    "C57_euler_kocks",
    "C57_euler_roe",
    "C57_euler_bunge_partial",
    "C57_euler_bunge_refuted",
    "C57_euler_degrees",
    "C57_euler_rejects",
    "C57_euler_forth_partial",
    "C57_euler_forth_refuted",
    "C57_hopf_unit",
    "C57_hopf_forth",
    "C57_hyperspherical_unit",
    "C57_hyperspherical_forth",
    "C57_hyperspherical_identity_refuted",
    "C57_vectors",
    "C57_vectors_not_unit_refuted"
   ],
   "note": "Exact for all formats away from the singular points named in the refuted theorems."
  },
  {
   "property": "C58",
   "status": "partial",
   "theorems": [
    "C58_distance_symmetric",
    "C58_distance_triangle",
    "C58_distance_zero",
    "C58_distance_range",
    "C58_distance_sign",
    "C58_distance_left",
    "C58_distance_right",
    "C58_distance_angle",
    "C58_exponential_unit",
    "C58_exponential_partial",
    "C58_exponential_zero_refuted",
    "C58_log_exp",
    "C58_exp_log",
    "C58_quaternion_log_scaled",
    "C58_log_identity_refuted",
    "C58_quaternion_exp_log",
    "C58_power_one",
    "C58_power_add",
    "C58_power_not_unit_refuted",
    "C58_power_identity_refuted",
    "C58_rotate_to",
    "C58_rotate_to_parallel_refuted",
    "C58_rotate_to_family"
   ],
   "note": "Metric, exponential, logarithm, powers and rotate_to proved away from the identity and parallel vectors, where the code is refuted."
  },
  {
   "property": "C59",
   "status": "proved",
   "theorems": [
    "C59_group",
    "C59_order",
    "C59_unknown"
   ],
   "note": ""
  },
  {
   "property": "C60",
   "status": "partial",
   "theorems": [
    "C60_minimal",
    "C60_minimal_refuted",
    "C60_block",
    "C60_block_size"
   ],
   "note": "Proved for classes 432, 23, 622, 32, 42 and 222; refuted for 6, 3, 4, 2 and 1."
  },
  {
   "property": "C61",
   "status": "proved",
   "theorems": [
    "C61_reciprocal",
    "C61_direction",
    "C61_plane",
    "C61_inner",
    "C61_rejected",
    "C61_four_index_direction",
    "C61_four_index_inner",
    "C61_four_index_rejected",
    "C61_four_index_length",
    "C61_cubic",
    "C61_hexagonal"
   ],
   "note": ""
  },
  {
   "property": "C62",
   "status": "partial",
   "theorems": [
    "C62_equivalent",
    "C62_equivalent_exact",
    "C62_equivalent_length",
    "C62_bidirectional",
    "C62_slip_systems",
    "C62_slip_systems_sound",
    "C62_slip_added",
    "C62_slip_empty_refuted",
    "C62_numbering",
    "C62_no_empty_group",
    "C62_planes",
    "C62_queries",
    "C62_symmetric_part",
    "C62_skew_part",
    "C62_shear",
    "C62_shear_objective",
    "C62_stale_cache_refuted",
    "C62_collision_refuted",
    "C62_half_turn",
    "C62_twin_candidate",
    "C62_twin_systems",
    "C62_twin_sound",
    "C62_characteristic_shear"
   ],
   "note": "Proved for every history with an injective hash and no systems added after a query; the stale cache, hash collisions and silently dropped families are refuted."
  },
  {
   "property": "C63",
   "status": "partial",
   "theorems": [
    "C63_slip_derivatives",
    "C63_history_derivatives",
    "C63_total_slip_derivatives",
    "C63_power_law_scalar",
    "C63_kinematic_scalar",
    "C63_power_law_crystal",
    "C63_power_law_value",
    "C63_power_law_direction",
    "C63_power_law_odd",
    "C63_kinematic_inside",
    "C63_kinematic_outside",
    "C63_kinematic_direction",
    "C63_twin_gate",
    "C63_twin_forward",
    "C63_lattice",
    "C63_average",
    "C63_own_strength_partial",
    "C63_own_strength_refuted",
    "C63_strength_query_refuted"
   ],
   "note": "Derivatives, signs, gate and numbering for any number of systems and strengths, for the strengths the code uses; that each system uses its own strength is refuted except for strengths equal in all systems."
  },
  {
   "property": "C64",
   "status": "partial",
   "theorems": [
    "C64_fixed",
    "C64_voce_per_system_partial",
    "C64_frederick_armstrong_partial",
    "C64_general_linear",
    "C64_simple_linear",
    "C64_lanl_partial",
    "C64_plastic_slip",
    "C64_plastic_slip_sum",
    "C64_voce_factor",
    "C64_linear_factor",
    "C64_voce_external_refuted",
    "C64_frederick_armstrong_external_refuted",
    "C64_lanl_external_refuted",
    "C64_voce_slip_direction",
    "C64_linear_slip_direction",
    "C64_frederick_armstrong_limit",
    "C64_lanl_direction",
    "C64_voce_softens_refuted",
    "C64_initial_voce",
    "C64_initial_simple",
    "C64_initial_plastic",
    "C64_initial_general_refuted",
    "C64_simple_row_refuted",
    "C64_nye",
    "C64_nye_refuted"
   ],
   "note": "Derivatives of all laws through stress and own variables, through the other variables for the linear, total-slip and fixed laws; refuted for the others. Initial strength refuted for the general linear law."
  },
  {
   "property": "C65",
   "status": "partial",
   "theorems": [
    "C65_none",
    "C65_slip_derivatives",
    "C65_power_derivatives",
    "C65_combined_derivatives_partial",
    "C65_slip_isochoric",
    "C65_power_isochoric",
    "C65_combined_isochoric",
    "C65_slip_work",
    "C65_slip_work_positive",
    "C65_power_work_positive",
    "C65_combined_work_positive",
    "C65_slip_turns",
    "C65_lattice_turns",
    "C65_laws_blind",
    "C65_power_turns",
    "C65_power_value",
    "C65_power_equivalent",
    "C65_power_strength",
    "C65_combined_strength",
    "C65_power_small_refuted",
    "C65_combined_two_refuted",
    "C65_combined_two_reported",
    "C65_combined_three_refuted"
   ],
   "note": "Everything proved for slip, power law and none; combined models for at most one part with variables, refuted for two and three; power-law derivative refuted below machine epsilon."
  },
  {
   "property": "C66",
   "status": "partial",
   "theorems": [
    "C66_derivatives",
    "C66_by_deformation",
    "C66_by_vorticity",
    "C66_bracket",
    "C66_turns",
    "C66_elastic",
    "C66_unstressed",
    "C66_spin_partial",
    "C66_spin_refuted"
   ],
   "note": "Derivatives, bracket, frame indifference and elastic limits proved; the documented spin is refuted, the spin computed is characterised."
  },
  {
   "property": "C67",
   "status": "partial",
   "theorems": [
    "C67_step_solved",
    "C67_residual",
    "C67_jacobian",
    "C67_tangents",
    "C67_dispatch",
    "C67_terminates",
    "C67_complete",
    "C67_elastic_whole",
    "C67_subdivided_partial",
    "C67_subdivided_refuted",
    "C67_forced_refuted"
   ],
   "note": "Proved for steps solved in one piece; termination and dispatch for all; with subdivision the returned stress is refuted and only the last substep is characterised."
  },
  {
   "property": "C68",
   "status": "partial",
   "theorems": [
    "C68_deformation_given",
    "C68_rotation_unit",
    "C68_rotation_kept",
    "C68_rotation_turns",
    "C68_no_spin_partial",
    "C68_no_spin_refuted",
    "C68_zero_time_partial",
    "C68_energy_partial",
    "C68_energy_refuted",
    "C68_work",
    "C68_elastic_no_dissipation",
    "C68_orientations",
    "C68_deformation_refuted"
   ],
   "note": "Unit norm, rotation by non-zero spin, dissipation and orientations proved; zero spin, zero time, the energy increment and Fe are refuted."
  },
  {
   "property": "C69",
   "status": "proved",
   "theorems": [
    "C69_each",
    "C69_throws",
    "C69_schedule",
    "C69_init",
    "C69_orientations",
    "C69_orientations_count",
    "C69_reference"
   ],
   "note": ""
  },
  {
   "property": "C70",
   "status": "partial",
   "theorems": [
    "C70_weights",
    "C70_weights_given",
    "C70_weights_default",
    "C70_weights_rejected",
    "C70_layout",
    "C70_start",
    "C70_averages",
    "C70_throws",
    "C70_uniform",
    "C70_tangents",
    "C70_elastic_strains_partial",
    "C70_elastic_strains_refuted",
    "C70_elastic_strains_overrun_refuted",
    "C70_reference"
   ],
   "note": "Weights, store, averaging over histories and tangents proved; elastic strains are right only for exactly six crystals (refuted otherwise)."
  },
  {
   "property": "C71",
   "status": "proved",
   "theorems": [
    "C71_fractions",
    "C71_quiet",
    "C71_turns",
    "C71_flag",
    "C71_unit",
    "C71_frozen"
   ],
   "note": ""
  },
  {
   "property": "C72",
   "status": "partial",
   "theorems": [
    "C72_normal_projection",
    "C72_shear_projection",
    "C72_shear_projection_refuted",
    "C72_projections",
    "C72_one_plane",
    "C72_first_plane",
    "C72_other_planes_refuted",
    "C72_map_range",
    "C72_map_grows",
    "C72_map_ends",
    "C72_sigmoid_derivative",
    "C72_switch_derivative",
    "C72_invertible",
    "C72_critical",
    "C72_cutoff",
    "C72_undamaged",
    "C72_work_grows",
    "C72_work_derivative",
    "C72_projection_derivatives",
    "C72_projection_derivatives_refuted",
    "C72_rate_derivatives",
    "C72_planes_unit",
    "C72_planes_systems",
    "C72_planes_cover"
   ],
   "note": "Projection algebra, transformations, invertibility, growth and derivatives proved; traction freeness of later planes, the six by six shear projection and the derivative by the normal stress are refuted."
  },
  {
   "property": "C73",
   "status": "partial",
   "theorems": [
    "C73_rate_derivatives",
    "C73_history_derivatives",
    "C73_by_deformation",
    "C73_by_vorticity",
    "C73_planar_invertible",
    "C73_nil",
    "C73_nil_stress",
    "C73_undamaged",
    "C73_nil_standard",
    "C73_nil_standard_refuted",
    "C73_spin_value",
    "C73_spin_refuted",
    "C73_rigid_spin_refuted",
    "C73_elastic_strain",
    "C73_elastic_increment",
    "C73_planar"
   ],
   "note": "All derivatives, the undamaged isotropic limit and the elastic strain proved; consistency of the plastic spin, rigid rotation and the anisotropic limit are refuted."
  },
  {
   "property": "C74",
   "status": "partial",
   "theorems": [
    "C74_derivatives",
    "C74_jacobian",
    "C74_scale_derivative",
    "C74_scale_derivative_refuted",
    "C74_rate_independent",
    "C74_rate_dependent",
    "C74_scale_positive",
    "C74_reference_rate",
    "C74_dissipation"
   ],
   "note": "Everything proved where the deviatoric strain rate does not vanish or the switch is zero; at zero deviatoric strain rate the scaling has no derivative (refuted)."
  },
  {
   "property": "C75",
   "status": "partial",
   "theorems": [
    "C75_flow_derivatives",
    "C75_full_model",
    "C75_test_flow",
    "C75_no_softening",
    "C75_softening",
    "C75_softening_value",
    "C75_softening_refuted",
    "C75_scaling",
    "C75_scaling_grows",
    "C75_isotropic",
    "C75_drag",
    "C75_drag_refuted",
    "C75_frederick_armstrong",
    "C75_kinematic",
    "C75_kinematic_recovery",
    "C75_initial_state_refuted",
    "C75_kinematic_limit_refuted"
   ],
   "note": "All derivatives proved for any number of backstresses on the stated domain; refuted at negative plastic strain, below and at the initial drag stress, and the limit of the backstress jumps at zero plastic strain."
  },
  {
   "property": "C76",
   "status": "partial",
   "theorems": [
    "C76_plastic_strain_measure",
    "C76_flow",
    "C76_dissipation",
    "C76_deviatoric",
    "C76_deviatoric_frederick_armstrong",
    "C76_deviatoric_walker",
    "C76_update_viscoplastic",
    "C76_update_switch",
    "C76_drag_bounds",
    "C76_isotropic_bounds",
    "C76_plastic_strain_grows",
    "C76_backstress_bounds",
    "C76_bounded_frederick_armstrong",
    "C76_bounded_walker",
    "C76_variables",
    "C76_variables_exist",
    "C76_superposition_refuted",
    "C76_superposition_test_refuted"
   ],
   "note": "Bounds, growth, deviatoric rates and flow proved over runs of any length, names for a flow rule on its own; in a superposition every lookup fails (refuted)."
  },
  {
   "property": "C77",
   "status": "partial",
   "theorems": [
    "C77_result",
    "C77_iterates",
    "C77_stops",
    "C77_linear",
    "C77_line_search",
    "C77_line_search_reduces",
    "C77_line_search_ends",
    "C77_decrease",
    "C77_nan_refuted",
    "C77_nan_later_refuted",
    "C77_late_convergence_refuted"
   ],
   "note": "Proved for residuals that are numbers; NaN counts as converged and convergence in the last allowed iteration as failure (refuted)."
  },
  {
   "property": "C78",
   "status": "partial",
   "theorems": [
    "C78_uniaxial",
    "C78_tangent",
    "C78_elastic",
    "C78_elastic_works",
    "C78_history",
    "C78_elastic_strain",
    "C78_elastic_strain_refuted"
   ],
   "note": "Response, tangent, elastic limit and histories proved; the elastic strain of models that read their store is refuted."
  },
  {
   "property": "C79",
   "status": "partial",
   "theorems": [
    "C79_history",
    "C79_appends",
    "C79_strain_step",
    "C79_stress_step",
    "C79_rate_step",
    "C79_rate_step_time",
    "C79_rate_step_increment",
    "C79_stress_rate_step",
    "C79_stress_rate_time_partial",
    "C79_hold_step",
    "C79_guess",
    "C79_failure",
    "C79_stress_jacobian",
    "C79_rate_jacobian",
    "C79_hold_jacobian_partial",
    "C79_elastic_stress",
    "C79_elastic_rate",
    "C79_hold_refuted",
    "C79_direction_length_refuted",
    "C79_slow_loading_refuted",
    "C79_no_time_refuted"
   ],
   "note": "History, targets and Jacobians proved; holding components other than the first, directions of length other than one under stress rate control, slow stress rates and steps over no time are refuted."
  },
  {
   "property": "C80",
   "status": "partial",
   "theorems": [
    "C80_ramp",
    "C80_hold",
    "C80_ramp_entries",
    "C80_uniaxial_test",
    "C80_uniaxial_direction_refuted",
    "C80_cycle",
    "C80_cyclic_test",
    "C80_cyclic_compression_refuted",
    "C80_cyclic_ratio_refuted",
    "C80_creep",
    "C80_creep_last_time",
    "C80_creep_log_times",
    "C80_creep_log_times_refuted",
    "C80_creep_compression_refuted",
    "C80_isochronous_curve",
    "C80_isochronous_time",
    "C80_isochronous_time_refuted",
    "C80_isochronous_zero_refuted",
    "C80_thermomechanical_refuted",
    "C80_ratcheting",
    "C80_steady",
    "C80_steady_refuted",
    "C80_deformation_gradient",
    "C80_deformation_gradient_parts",
    "C80_deformation_gradient_rotation_refuted"
   ],
   "note": "Ramps, holds, cycles, creep and curves proved with accumulated tolerances; refuted for directions not of length one, cycles starting in compression or with a minimum above the maximum, logarithmic holds below one unit of time, compression creep, the time of isochronous curves, thermomechanical results and the classification of zero strain."
  },
  {
   "property": "C81",
   "status": "partial",
   "theorems": [
    "C81_equilibrium",
    "C81_self_balance",
    "C81_jacobian",
    "C81_jacobian_symmetric",
    "C81_jacobian_regular",
    "C81_elastic",
    "C81_time",
    "C81_ends",
    "C81_endless_refuted",
    "C81_failure_refuted",
    "C81_dissipation_partial",
    "C81_dissipation_refuted"
   ],
   "note": "Equilibrium, compatibility, times, termination, Jacobian and elastic networks proved; a failing call leaves finished substeps, ndiv=0 divides for ever and the recorded dissipation is the energy (refuted)."
  },
  {
   "property": "C82",
   "status": "partial",
   "theorems": [
    "C82_wall",
    "C82_start",
    "C82_loading",
    "C82_back",
    "C82_pressure",
    "C82_rectangle_weights",
    "C82_rectangle_first",
    "C82_tolerances_refuted",
    "C82_energy_partial",
    "C82_energy_refuted",
    "C82_time_refuted",
    "C82_recorded_pressure_refuted"
   ],
   "note": "Returned steps characterised, start and loading changes proved; the tolerances are ignored, energies square the weights, failed steps leave the bars ahead of the record and changed pressures are not recorded (refuted)."
  },
  {
   "property": "C83",
   "status": "partial",
   "theorems": [
    "C83_history",
    "C83_step",
    "C83_undivided",
    "C83_atomic",
    "C83_ends",
    "C83_thermal",
    "C83_hoop_force",
    "C83_axial_mean",
    "C83_axial_force_refuted",
    "C83_jacobian",
    "C83_newton",
    "C83_newton_held",
    "C83_elastic",
    "C83_last_iteration_refuted",
    "C83_substep_time_refuted"
   ],
   "note": "History, equilibrium, failure, termination, thermal strains, Jacobian, Newton step and elastic walls proved; a divided step is taken under the loads of a later time, a solution in the last iteration is rejected, and the axial balance weighs all radii equally (refuted)."
  },
  {
   "property": "C84",
   "status": "proved",
   "theorems": [
    "C84_range",
    "C84_linear",
    "C84_cycle",
    "C84_periodic",
    "C84_rate",
    "C84_timesteps",
    "C84_layers_flux",
    "C84_layers_surfaces",
    "C84_layers_range",
    "C84_layers_single",
    "C84_layers_lengths",
    "C84_even",
    "C84_bias",
    "C84_bias_symmetric",
    "C84_bias_ends",
    "C84_mesh",
    "C84_wall",
    "C84_materials"
   ],
   "note": "All parts proved for positive rates and increasing points."
  },
  {
   "property": "C85",
   "status": "partial",
   "theorems": [
    "C85_relaxation",
    "C85_relaxation_columns",
    "C85_relaxation_peak_refuted",
    "C85_hold_time",
    "C85_log_hold_refuted",
    "C85_followup_cycle",
    "C85_followup",
    "C85_followup_limits_refuted",
    "C85_stress_cyclic",
    "C85_stress_cyclic_stop_refuted",
    "C85_rate_jump",
    "C85_rate_jump_strains",
    "C85_rate_jump_segment",
    "C85_rate_jump_down_refuted",
    "C85_extrapolated",
    "C85_extrapolated_numbers",
    "C85_extrapolated_ends",
    "C85_extrapolated_history",
    "C85_extrapolated_stress_refuted",
    "C85_extrapolated_minimum_refuted"
   ],
   "note": "Proved: recorded trajectories, times, limits, summaries, numbering, termination and the extrapolation of the internal variables. Refuted (findings): the start of relaxation is missing from the returned columns, logarithmic holds are one time unit short, follow up cycles leave their strain limits, lists of different length after a stop, silent skipping of lower target strains, stress and time of extrapolated cycles."
  },
  {
   "property": "C86",
   "status": "partial",
   "theorems": [
    "C86_mass",
    "C86_mass_unique",
    "C86_switch",
    "C86_switch_equilibrium",
    "C86_driving_force",
    "C86_supersaturated",
    "C86_coarsening",
    "C86_volume",
    "C86_no_undershoot",
    "C86_scaling",
    "C86_initial",
    "C86_jacobian",
    "C86_no_precipitate_refuted",
    "C86_equilibrium_refuted"
   ],
   "note": "Everything proved on the stated domain; refuted without precipitate (a derivative reads an uninitialised variable) and exactly at equilibrium (division by zero)."
  },
  {
   "property": "C87",
   "status": "partial",
   "theorems": [
    "C87_spacing",
    "C87_spacing_steady",
    "C87_spacing_history",
    "C87_spacing_unique",
    "C87_strength",
    "C87_rates",
    "C87_strength_bound",
    "C87_no_precipitates",
    "C87_arrhenius",
    "C87_arrhenius_zero_refuted",
    "C87_arrhenius_strength_refuted",
    "C87_rule",
    "C87_start",
    "C87_start_refuted",
    "C87_grain_start",
    "C87_strength_start",
    "C87_strength_start_refuted"
   ],
   "note": "Derivatives, bounds, uniqueness and the whole rule proved; refuted: continuity of the Arrhenius rate at zero shear, its domain beyond the strength, and the initial orientation and earlier strengths, which the hardening model zeroes."
  },
  {
   "property": "C88",
   "status": "partial",
   "theorems": [
    "C88_names",
    "C88_unknown_name",
    "C88_initial",
    "C88_mass",
    "C88_mass_missing",
    "C88_mass_refuted",
    "C88_switch",
    "C88_switch_equilibrium",
    "C88_coarsening",
    "C88_no_undershoot",
    "C88_single",
    "C88_single_history",
    "C88_jacobian_partial",
    "C88_jacobian_rows",
    "C88_jacobian_refuted",
    "C88_strength",
    "C88_volume_undefined",
    "C88_unused_species_refuted"
   ],
   "note": "Proved: names, switch, coarsening, equilibrium over histories, agreement with the basic model, strength derivative, and the derivative of the rates less the term counted twice. Refuted: conservation of mass with precipitates of different species, the reported derivative of the rates, and the strength with a species in no precipitate."
  },
  {
   "property": "C89",
   "status": "partial",
   "theorems": [
    "C89_zero",
    "C89_identity",
    "C89_diagonal",
    "C89_diagonal_blocks",
    "C89_block",
    "C89_every_entry",
    "C89_dense",
    "C89_unknown_kind",
    "C89_initialised",
    "C89_dimensions",
    "C89_product",
    "C89_product_sizes",
    "C89_write",
    "C89_rectangular_refuted",
    "C89_rectangular_outside_refuted",
    "C89_rectangular_shared_refuted",
    "C89_memory",
    "C89_memory_assignment_refuted",
    "C89_memory_leak_refuted",
    "C89_memory_matrix_copy_refuted"
   ],
   "note": "Proved for square matrices, the only ones the library itself builds, and for lifetimes without assignment; refuted for rectangular matrices, vector assignment and matrix copies."
  },
  {
   "property": "C90",
   "status": "partial",
   "theorems": [
    "C90_stereographic",
    "C90_stereographic_conformal",
    "C90_lambert_area",
    "C90_lambert_radius",
    "C90_azimuth",
    "C90_limits",
    "C90_injective",
    "C90_projection_names",
    "C90_polar",
    "C90_inverse_sphere",
    "C90_inverse_lambert_sphere",
    "C90_inverse_mirrored_partial",
    "C90_inverse_lambert_mirrored_partial",
    "C90_inverse_refuted",
    "C90_inverse_circle_refuted",
    "C90_chart",
    "C90_poles",
    "C90_poles_unit",
    "C90_pole_figure",
    "C90_pole_figure_empty_refuted",
    "C90_pole_axes",
    "C90_pole_axes_refuted",
    "C90_pole_crystal_symmetry_partial",
    "C90_pole_sample_symmetry_refuted",
    "C90_pole_sample_symmetry_idle_refuted",
    "C90_inverse_points",
    "C90_inverse_points_unit",
    "C90_inverse_axes_refused",
    "C90_inverse_symmetry",
    "C90_duality",
    "C90_inverse_equator_refuted",
    "C90_triangle",
    "C90_triangle_reversed_refuted",
    "C90_triangle_calls",
    "C90_edges",
    "C90_edges_complete",
    "C90_colour_range",
    "C90_colour_range_refuted",
    "C90_colour_corners",
    "C90_cubic_reached",
    "C90_cubic_unique",
    "C90_cubic_missing_refuted"
   ],
   "note": "Proved for the projections, limits, points, inverse figures, triangle and colours; refuted for the inverse projections, the sample symmetry and axes of pole figures, reversed triangles and the representatives of the reduced cubic figure."
  },
  {
   "property": "C91",
   "status": "partial",
   "theorems": [
    "C91_notations",
    "C91_strain",
    "C91_stress_in",
    "C91_stress_out",
    "C91_history",
    "C91_refused",
    "C91_tangent_partial",
    "C91_tangent_right_only",
    "C91_tangent_refuted",
    "C91_shear_twice",
    "C91_released",
    "C91_leak_refuted",
    "C91_leak_any_refuted",
    "C91_elements_refuted",
    "C91_programs",
    "C91_program_history",
    "C91_program_error_refuted"
   ],
   "note": "Proved for the notations, histories, refused increments and programs; refuted for the tangent, small elements, freeing the model after a refused increment and the reported error."
  },
  {
   "property": "C92",
   "status": "partial",
   "theorems": [
    "C92_values",
    "C92_construct",
    "C92_keyword_order",
    "C92_missing",
    "C92_unknown",
    "C92_unknown_error_refuted",
    "C92_by_keyword_refuted",
    "C92_twice_refuted",
    "C92_mixed_list_refuted",
    "C92_pickle",
    "C92_pickle_exact_refuted"
   ],
   "note": "Proved for values, construction, keyword order, missing and unknown parameters and pickling to six digits; refuted for required parameters by keyword, a parameter given twice, the error for unknown keywords, mixed lists and exact copies by pickle."
  },
  {
   "property": "C93",
   "status": "partial",
   "theorems": [
    "C93_reload",
    "C93_same",
    "C93_same_case",
    "C93_twins_refuted",
    "C93_twins_lost",
    "C93_order_refuted",
    "C93_order",
    "C93_failed_refuted",
    "C93_failed",
    "C93_given_refuted",
    "C93_python_refuted"
   ],
   "note": "Proved for slip systems after any history, for twin systems of hexagonal lattices and, slips before twins, for the numbering; refuted for twins of cubic and general lattices, for the order of groups and after failed additions."
  },
  {
   "property": "C94",
   "status": "partial",
   "theorems": [
    "C94_contents",
    "C94_plain",
    "C94_inputs",
    "C94_sizes_refuted",
    "C94_in_place",
    "C94_in_place_refuted",
    "C94_block",
    "C94_block_any",
    "C94_block_refuted",
    "C94_block_checked",
    "C94_block_scalar_refuted",
    "C94_orientation_three",
    "C94_orientation_nine",
    "C94_orientation_four",
    "C94_orientation_four_refuted",
    "C94_orientation_matrix_refuted",
    "C94_orientation_other",
    "C94_history_shared",
    "C94_history_view_refuted",
    "C94_history_dropped_refuted",
    "C94_history_copied",
    "C94_vector_index",
    "C94_two_index",
    "C94_two_index_refuted",
    "C94_two_assign",
    "C94_four_index",
    "C94_four_index_refuted"
   ],
   "note": "Proved for arrays that are read, for contiguous result arrays, for the checked shapes of block_evaluate, for copying and for indices in range; refuted for results into other layouts, sizes of unchecked arguments, numbers in place of arrays, stored pointers and index 3 of tensors."
  },
  {
   "property": "C95",
   "status": "partial",
   "theorems": [
    "C95_offset_stress",
    "C95_uniaxial_yield",
    "C95_offset_sound",
    "C95_not_reached",
    "C95_uniaxial_not_reached",
    "C95_ambiguous_refuted",
    "C95_compression",
    "C95_compression_refuted"
   ],
   "note": "Proved for curves that never steepen, reached and not reached; soundness for all curves with rising strains; refuted: uniqueness on curves that steepen again, and compression tests, which always report inf."
  },
  {
   "property": "C96",
   "status": "partial",
   "theorems": [
    "C96_history",
    "C96_gradients_recovered",
    "C96_returns",
    "C96_regular",
    "C96_stretch",
    "C96_logarithmic",
    "C96_reference",
    "C96_start",
    "C96_observer",
    "C96_rotation",
    "C96_rotation_small",
    "C96_rotation_refuted"
   ],
   "note": "History, recovery of gradients, totality, stretches, convergence, reference and observer changes proved; zero strain under rigid rotation is refuted, with exact value and bound."
  },
  {
   "property": "C97",
   "status": "partial",
   "theorems": [
    "C97_start",
    "C97_start_regimes",
    "C97_start_zero",
    "C97_start_refuted",
    "C97_names",
    "C97_names_refuted",
    "C97_nstore",
    "C97_nstate",
    "C97_nstate_refuted",
    "C97_reads",
    "C97_reads_regimes",
    "C97_reads_sizes_refuted",
    "C97_reads_inside_refuted",
    "C97_reads_creep_refuted",
    "C97_start_inside_refuted",
    "C97_prefix_refuted",
    "C97_damage",
    "C97_damage_prefix_refuted",
    "C97_damage_prefix"
   ],
   "note": "Proved for models without regimes (any prefix) and regimes of equal size at the top, creep around stateless models or zero initial values; names, starts, counts and reads are refuted for creep around models with variables, regimes inside other models, regimes of different sizes, and prefixes with regimes or get_damage."
  },
  {
   "property": "C98",
   "status": "partial",
   "theorems": [
    "C98_set",
    "C98_rebuilt",
    "C98_as_written",
    "C98_damage_refuted",
    "C98_last_call",
    "C98_others",
    "C98_shared_refuted",
    "C98_one_elastic",
    "C98_constructors_refuted"
   ],
   "note": "Exact effect of the call proved for all programs; behaviour as rebuilt proved without damage that reads the elastic model, refuted with it; other models unchanged proved without shared parts, refuted with them; constructors that mix elastic models are a refutation."
  },
  {
   "property": "C99",
   "status": "partial",
   "theorems": [
    "C99_sum",
    "C99_linear",
    "C99_lanl_sizes",
    "C99_chaboche",
    "C99_chaboche_time",
    "C99_chaboche_value",
    "C99_chaboche_time_value",
    "C99_region",
    "C99_region_value",
    "C99_regimes",
    "C99_regimes_used",
    "C99_max",
    "C99_fixed",
    "C99_voce",
    "C99_voce_derivative",
    "C99_fa",
    "C99_lanl_strength",
    "C99_lanl_rate",
    "C99_twin_first_refuted",
    "C99_hucocks",
    "C99_hucocks_short",
    "C99_lists_refuted"
   ],
   "note": "Proved for every class modelled as an exact condition on the lengths; SumSeveralEffectiveStress, GeneralLinearHardening and SimpleLinearHardening meet the property, the others accept lists that are then read past their end (C99_lists_refuted, C99_twin_first_refuted)."
  },
  {
   "property": "C100",
   "status": "partial",
   "theorems": [
    "C100_double",
    "C100_longest",
    "C100_refused",
    "C100_int",
    "C100_int_range",
    "C100_size",
    "C100_size_range",
    "C100_size_refuted",
    "C100_list",
    "C100_list_size",
    "C100_list_empty",
    "C100_constant",
    "C100_bool",
    "C100_bool_blank_refuted",
    "C100_comma_refuted",
    "C100_comma_list_refuted",
    "C100_cut_refuted"
   ],
   "note": "Proved for every decimal number, every whole number in or out of range, every list separated by blanks and the eight words; refusal is proved for texts that do not start with a number and refuted for texts that do (rest ignored), for negative sizes, and blanks around switches are refuted."
  },
  {
   "property": "C101",
   "status": "partial",
   "theorems": [
    "C101_set",
    "C101_set_each_step",
    "C101_exact",
    "C101_unused",
    "C101_strength_set",
    "C101_strength_lost_refuted",
    "C101_uses",
    "C101_cold_refuted",
    "C101_kept_refuted"
   ],
   "note": "Exact behaviour proved for all programs; as expected when the tensor is given before every update; staying in force is refuted: each update clears it. Post-processors are left out."
  },
  {
   "property": "C102",
   "status": "partial",
   "theorems": [
    "C102_received",
    "C102_missing",
    "C102_wrong_class",
    "C102_unknown",
    "C102_default_suits",
    "C102_names",
    "C102_obtainable",
    "C102_lattice_refuted",
    "C102_other_type_refuted",
    "C102_literal_refuted"
   ],
   "note": "Proved for all registered classes but GeneralLattice and CubicLattice, whose twin systems never arrive (refuted); values of another type and long character literals through the C++ interface are refuted too."
  },
  {
   "property": "C103",
   "status": "partial",
   "theorems": [
    "C103_values",
    "C103_all_freed",
    "C103_move_window_refuted",
    "C103_move_owner_refuted",
    "C103_quaternion_copy_refuted",
    "C103_add_overlap_refuted"
   ],
   "note": "Proved for all programs that do not move-assign from a window on a tensor, copy a window on a quaternion or add to a window an overlapping one that begins earlier; all three are refuted."
  },
  {
   "property": "C104",
   "status": "partial",
   "theorems": [
    "C104_containers",
    "C104_all_freed",
    "C104_make_store_refuted",
    "C104_increase_store_refuted",
    "C104_add_overlap_refuted"
   ],
   "note": "Proved for all programs but sums of overlapping windows (refuted); make_store does not keep the numbers and increase_store on a window deletes the array (both refuted). Histories over the memory of other histories are not modelled."
  }
 ]
}