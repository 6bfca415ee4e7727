# What Print Assumptions lists for each theorem

Generated by `tools/gen_assumptions.py`.  Every axiom is of Coq's standard library.

## no axioms (closed under the global context)

`C27_empty_sequence_raises`, `C63_guess`, `C63_initial`

## `ClassicalDedekindReals.sig_forall_dec`

`C02_negative_refuted`, `C15_column_vector_refuted`, `C15_rejected_unchanged_partial`, `C26_affine_simulation`, `C26_linear_simulation`, `C26_wrong_sizes`, `C27_unknown_mode_raises`, `C36_polyhedron_columns_refuted`, `C36_polyhedron_constructor`, `C55_intersection_shares_nothing`, `C71_state_space`

## `ClassicalDedekindReals.sig_forall_dec`, `FunctionalExtensionality.functional_extensionality_dep`

`C01_accumulation`, `C02_from_bounds`, `C02_from_lower_bound`, `C02_from_upper_bound`, `C02_order_refuted`, `C02_selected_bounds`, `C02_selected_coordinates`, `C02_selected_equalities`, `C04_intersection`, `C05_cartesian_product`, `C06_contains_exact`, `C06_contains_general`, `C06_contains_no_inequalities_refuted`, `C06_contains_partial`, `C06_contains_refuted`, `C103_feedforward`, `C103_form`, `C103_unrounded`, `C14_elimination`, `C14_elimination_rejects`, `C15_add_bounds_refuted`, `C21_qp_not_pd`, `C24_lone_equalities`, `C24_model_cut`, `C24_model_partial`, `C24_tiny_refuted`, `C25_dispatch_partial`, `C25_lone_refuted`, `C26_closed_loop`, `C27_affine_condense`, `C27_condensed_dynamics`, `C27_linear_condense`, `C28_equalities_refuted`, `C28_exact`, `C28_simulation_partial`, `C34_euler_compose_refuted`, `C34_euler_rejects`, `C34_explicit_euler`, `C36_affine_constructor`, `C36_linear_constructor`, `C36_pwa_constructor`, `C41_lookup`, `C48_horizon_zero`, `C50_equalities_ignored`, `C57_uses_Q`, `C60_gurobi_lp`, `C60_gurobi_miqp`, `C60_gurobi_qp`, `C66_near_active_refuted`, `C67_drake_miqp`, `C67_lone_equalities`, `C71_errors`, `C71_inputs`, `C71_outputs`, `C71_states`, `C71_text_refuted`, `C74_big_m_partial`, `C74_big_m_refuted`, `C76_mode_refuted`, `C87_history`, `C87_rejected`, `C89_intersection`, `C89_intersection_refuted`, `C89_product`, `C89_product_refuted`, `C89_tolerance`, `C90_composition`, `C90_difference`, `C90_linear_affine`, `C90_one_dynamics`, `C90_superposition`, `C91_controllable`, `C93_clear`, `C93_membership`, `C93_points`, `C93_unrounded`, `C94_affine`, `C94_contraction`, `C94_linear`, `C94_pwa`, `C94_total`, `C99_covered`, `C99_feedback`, `C99_lookup`, `C99_unrounded`

## `ClassicalDedekindReals.sig_forall_dec`, `ClassicalDedekindReals.sig_not_dec`, `FunctionalExtensionality.functional_extensionality_dep`

`C03_caches`, `C03_removal_radius_refuted`, `C07_integer_storage_refuted`, `C07_normalize`, `C08_empty_criterion`, `C08_empty_refuted`, `C09_bounded_refuted`, `C10_redundancy_exact_partial`, `C10_redundancy_removal`, `C10_strict_tolerance`, `C10_tolerance_refuted`, `C11_minimality`, `C12_empty_refuted`, `C12_included_true`, `C12_inclusion_partial`, `C12_unbounded_refuted`, `C13_chebyshev`, `C13_empty_negative`, `C13_polytope`, `C13_unbounded_equalities_refuted`, `C13_unbounded_none`, `C13_zero_row_refuted`, `C17_indices`, `C18_lp_optimality`, `C19_lp_none`, `C19_lp_none_iff_refuted`, `C20_lp_multipliers`, `C21_qp_optimality`, `C22_qp_infeasible_none`, `C22_qp_none_iff`, `C22_qp_none_refuted`, `C23_active_set_refuted`, `C23_lp_active_set`, `C23_qp_active_set`, `C29_unbounded_refuted`, `C32_optimal_partial`, `C32_semidefinite_refuted`, `C32_solve_dare`, `C33_controllable`, `C35_affine_accepted`, `C35_irregular_refuted`, `C35_offset_refuted`, `C37_asymmetric_refuted`, `C42_tolerance_refuted`, `C43_frontier_partial`, `C47_encoding`, `C47_encoding_partial`, `C47_equalities_refuted`, `C49_bigM_exact`, `C49_empty_refuted`, `C49_raises_partial`, `C49_unbounded_refuted`, `C51_plane`, `C51_unique`, `C52_distinct`, `C52_duplicates_refuted`, `C52_same_rows_partial`, `C52_same_vectors_partial`, `C52_same_vectors_raises`, `C52_sound`, `C52_widths`, `C52_widths_refuted`, `C52_zero_row_refuted`, `C53_complete_partial`, `C53_contract`, `C53_independent`, `C53_rank_refuted`, `C53_tolerance_refuted`, `C55_derived`, `C55_mutation`, `C55_same_rows`, `C55_sets`, `C55_shared_matrix_refuted`, `C55_value_model`, `C55_view_refuted`, `C55_visible`, `C56_cover`, `C56_equalities_refuted`, `C56_isclose_refuted`, `C56_many_dimensions`, `C56_one_dimension_partial`, `C56_order_refuted`, `C56_plant_many_dimensions`, `C56_plant_one_dimension_partial`, `C56_plant_refuted`, `C57_entry`, `C57_one_mode_refuted`, `C57_small_refuted`, `C61_solvers_agree`, `C62_from_convex_hull`, `C62_from_convex_hull_total`, `C64_facet_center`, `C64_facet_center_1d`, `C64_step`, `C65_drake_lp`, `C65_multipliers_refuted`, `C66_dependent_refuted`, `C66_drake_qp`, `C72_errors`, `C73_errors`, `C73_value_function`, `C74_convex_hull`, `C79_convex_refuted`, `C79_lookup_refuted`, `C89_members`, `C89_normalize_refuted`

## `ClassicalDedekindReals.sig_forall_dec`, `ClassicalDedekindReals.sig_not_dec`, `functional_extensionality_dep`

`C32_exists`, `C32_unique`

## `ClassicalDedekindReals.sig_forall_dec`, `Classical_Prop.classic`, `FunctionalExtensionality.functional_extensionality_dep`

`C60_integer_contract`, `C72_contract`

## `ClassicalDedekindReals.sig_forall_dec`, `ClassicalDedekindReals.sig_not_dec`, `Classical_Prop.classic`, `FunctionalExtensionality.functional_extensionality_dep`

`C03_entitled_partial`, `C03_normalize_bounded_refuted`, `C08_empty_partial`, `C09_bounded_partial`, `C09_polytope_is_bounded`, `C100_local`, `C100_margin_refuted`, `C100_robust`, `C101_first`, `C101_loop`, `C101_runs`, `C102_controller`, `C102_exact`, `C102_jump`, `C102_loop`, `C102_program`, `C102_value`, `C103_explicit`, `C103_float64`, `C104_equivalent`, `C104_longer_horizon`, `C104_modes`, `C104_simulation`, `C104_weights`, `C105_agree`, `C105_loop`, `C105_one_per_modes`, `C105_solvers`, `C105_tie_refuted`, `C106_again`, `C106_description_refuted`, `C106_intersection`, `C106_map`, `C106_monotone`, `C106_power`, `C106_product`, `C16_segment`, `C16_tolerance_refuted`, `C17_index_errors`, `C17_interval`, `C17_negative_refuted`, `C17_projection_partial`, `C17_raises`, `C17_skip_refuted`, `C29_bounded`, `C29_well_posed_partial`, `C30_equalities_refuted`, `C30_linear_mcais`, `C30_mcais`, `C30_mcais_exact_partial`, `C30_tolerance_refuted`, `C31_marginal_refuted`, `C31_mcais_halts_iff`, `C31_stable_halts_partial`, `C31_stable_refuted`, `C34_affine_system`, `C34_euler_error`, `C34_linear_system`, `C34_solutions`, `C34_zero_order_hold`, `C34_zoh_compose`, `C34_zoh_exact`, `C35_add_symbolic_equality`, `C35_add_symbolic_inequality`, `C35_affine_expression`, `C35_affine_system`, `C35_affine_system_accepted`, `C35_euler_affine`, `C35_linear_system`, `C35_non_affine`, `C35_polyhedron`, `C35_sampled_linear`, `C35_sampled_system`, `C37_condensed_cost_partial`, `C38_condensed_constraints_partial`, `C39_far_refuted`, `C39_feedforward_partial`, `C40_region_exact`, `C40_region_optimal`, `C40_region_returned`, `C41_unconstrained_refuted`, `C42_agreement`, `C42_far_refuted`, `C42_sound`, `C42_tolerance_bound`, `C42_tolerance_constants`, `C43_cover_refuted`, `C43_gap_refuted`, `C43_one_parameter_partial`, `C44_mcais_terminal_partial`, `C44_recursive_feasibility`, `C45_decrease`, `C46_lqr_bound`, `C48_feedforward_partial`, `C48_mpqp`, `C50_equalities_refuted`, `C54_feasible_set_partial`, `C54_one_parameter`, `C54_unbounded_refuted`, `C57_example_controller`, `C57_terminal_cost_refuted`, `C58_closed_loop`, `C59_explicit_mpc`, `C60_contract`, `C63_guess_refuted`, `C63_neighbour`, `C63_rows`, `C68_empty`, `C68_implicit_refuted`, `C68_segment`, `C68_thin`, `C68_vertices`, `C68_zero_row_refuted`, `C69_closed_loop`, `C69_convergence`, `C69_decrease`, `C69_practical`, `C70_design`, `C72_empty`, `C72_plot`, `C72_solid`, `C72_thin_refuted`, `C72_zero_row_refuted`, `C73_partition`, `C74_hull_drawn_partial`, `C75_mcais_demo_partial`, `C76_along_partial`, `C76_design`, `C76_run_partial`, `C77_terminates_partial`, `C77_terminates_refuted`, `C78_agreement`, `C78_explicit_loop_partial`, `C78_outside_refuted`, `C79_continuous`, `C79_mpc_convex`, `C79_single_valued`, `C79_value_convex_partial`, `C80_exact_horizon`, `C80_infinite_horizon`, `C80_longer_horizon`, `C80_short_horizon_refuted`, `C81_lipschitz`, `C81_mpc_law`, `C81_pieces`, `C82_coordinates`, `C82_representation`, `C82_symmetry`, `C83_scaling`, `C83_scaling_refuted`, `C84_one_dynamics`, `C85_closed_loop`, `C85_convergence`, `C86_closed_loop`, `C86_hold_refuted`, `C86_model`, `C86_sampled_partial`, `C88_interval`, `C88_region_partial`, `C89_inclusion`, `C90_discretised`, `C91_assert`, `C91_cart`, `C91_cart_loop`, `C91_pendulum`, `C91_pendulum_loop`, `C92_attractive_iff`, `C92_halts`, `C92_libraries`, `C92_lqr`, `C92_marginal_refuted`, `C92_spectral_radius`, `C92_test`, `C93_binary64`, `C93_far_refuted`, `C93_float64`, `C94_closed_loop`, `C94_stable`, `C95_conservation`, `C95_energy`, `C95_equations`, `C95_error`, `C95_local`, `C95_notebook`, `C95_stabilized`, `C95_total`, `C95_walls`, `C96_cart`, `C96_feedback`, `C96_hybrid_feedback`, `C96_hybrid_loop`, `C96_level`, `C96_mpc`, `C96_notebook`, `C97_between`, `C97_cart`, `C97_cart_controllable`, `C97_error`, `C97_euler_refuted`, `C97_gain`, `C97_hybrid`, `C97_lqr`, `C97_mpc`, `C97_sampled`, `C98_drake`, `C98_feedback`, `C98_hybrid`, `C98_sampled_hybrid`, `C98_sampled_mpc`, `C99_explicit`, `C99_far_refuted`, `C99_float64`, `C99_stored`

## `ClassicalDedekindReals.sig_forall_dec`, `ClassicalDedekindReals.sig_not_dec`, `ClassicalUniqueChoice.dependent_unique_choice`, `Classical_Prop.classic`, `FunctionalExtensionality.functional_extensionality_dep`, `RelationalChoice.relational_choice`

`C98_cart`, `C98_notebook`

## `ClassicalDedekindReals.sig_forall_dec`, `ClassicalDedekindReals.sig_not_dec`, `Classical_Prop.classic`, `FunctionalExtensionality.functional_extensionality_dep`, `dependent_unique_choice`, `relational_choice`

`C98_law`
