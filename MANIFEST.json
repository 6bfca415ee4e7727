{
 "claims": [
  {
   "property": "C01",
   "status": "proved",
   "theorems": [
    "C01_accumulation"
   ],
   "note": "every finite history of successful add_* calls, any shapes"
  },
  {
   "property": "C02",
   "status": "partial",
   "theorems": [
    "C02_selected_coordinates",
    "C02_selected_equalities",
    "C02_selected_bounds",
    "C02_order_refuted",
    "C02_negative_refuted",
    "C02_from_bounds",
    "C02_from_lower_bound",
    "C02_from_upper_bound"
   ],
   "note": "proved for strictly increasing index lists; order, and negative indices refuted (indices are used as a set of nonnegative positions)"
  },
  {
   "property": "C03",
   "status": "partial",
   "theorems": [
    "C03_caches",
    "C03_entitled_partial",
    "C03_normalize_bounded_refuted",
    "C03_removal_radius_refuted"
   ],
   "note": "proved for every history of reads and (accepted or rejected) additions, any library; with normalize and exact redundancy removals: empty, bounded=False, radius, center right for the current set; refuted for bounded after normalize and for radius after a removal within tolerance"
  },
  {
   "property": "C04",
   "status": "proved",
   "theorems": [
    "C04_intersection"
   ],
   "note": "every pair of coherent polyhedra of equal dimension; absence of side effects on the operands: see C55"
  },
  {
   "property": "C05",
   "status": "proved",
   "theorems": [
    "C05_cartesian_product"
   ],
   "note": "any number (including zero) of inequalities and equalities in each factor"
  },
  {
   "property": "C06",
   "status": "partial",
   "theorems": [
    "C06_contains_exact",
    "C06_contains_partial",
    "C06_contains_general",
    "C06_contains_refuted",
    "C06_contains_no_inequalities_refuted"
   ],
   "note": "The literal claim is false for two equalities and for no inequality (refuted); proved for at most one equality and at least one inequality; C06_contains_exact says what is computed for every polyhedron"
  },
  {
   "property": "C07",
   "status": "partial",
   "theorems": [
    "C07_normalize",
    "C07_integer_storage_refuted"
   ],
   "note": "proved for arrays of floats; refuted for arrays of integers (in-place division truncates)"
  },
  {
   "property": "C08",
   "status": "partial",
   "theorems": [
    "C08_empty_criterion",
    "C08_empty_partial",
    "C08_empty_refuted"
   ],
   "note": "exact criterion proved (points of norm below 10^7); literal statement refuted by {x >= 1e8}"
  },
  {
   "property": "C09",
   "status": "partial",
   "theorems": [
    "C09_bounded_partial",
    "C09_polytope_is_bounded",
    "C09_bounded_refuted"
   ],
   "note": "exact for non-empty polyhedra without near-degenerate recession data: True only if bounded, polytopes give True; literal statement refuted by tolerances"
  },
  {
   "property": "C10",
   "status": "partial",
   "theorems": [
    "C10_tolerance_refuted",
    "C10_redundancy_removal",
    "C10_redundancy_exact_partial",
    "C10_strict_tolerance"
   ],
   "note": "never fails and never loses a point: proved; no point added: proved under the redundancy gap, refuted without"
  },
  {
   "property": "C11",
   "status": "proved",
   "theorems": [
    "C11_minimality"
   ],
   "note": "with and without (independent) equalities; witness violates the facet by tol or more"
  },
  {
   "property": "C12",
   "status": "partial",
   "theorems": [
    "C12_inclusion_partial",
    "C12_included_true",
    "C12_empty_refuted",
    "C12_unbounded_refuted"
   ],
   "note": "proved for non-empty bounded P1; raises TypeError for empty P1 or P1 unbounded in a facet direction (refuted)"
  },
  {
   "property": "C13",
   "status": "partial",
   "theorems": [
    "C13_chebyshev",
    "C13_polytope",
    "C13_empty_negative",
    "C13_zero_row_refuted",
    "C13_unbounded_none",
    "C13_unbounded_equalities_refuted"
   ],
   "note": "largest ball proved for every non-empty polyhedron in which balls of arbitrary radius do not fit; negative radius for empty polyhedra without constant rows; refuted for {0 x <= -1} (None) and unbounded sets with equalities (ValueError)"
  },
  {
   "property": "C14",
   "status": "proved",
   "theorems": [
    "C14_elimination",
    "C14_elimination_rejects"
   ],
   "note": "bijection and isometry for independent equalities; ValueError otherwise"
  },
  {
   "property": "C15",
   "status": "partial",
   "theorems": [
    "C15_rejected_unchanged_partial",
    "C15_column_vector_refuted",
    "C15_add_bounds_refuted"
   ],
   "note": "proved for one-dimensional right-hand sides; refuted for column vectors and add_bounds"
  },
  {
   "property": "C16",
   "status": "partial",
   "theorems": [
    "C16_segment",
    "C16_tolerance_refuted"
   ],
   "note": "proved when no facet is redundant by less than tol and the segment has a point of norm below 10^7; refuted otherwise"
  },
  {
   "property": "C17",
   "status": "partial",
   "theorems": [
    "C17_projection_partial",
    "C17_interval",
    "C17_raises",
    "C17_indices",
    "C17_index_errors",
    "C17_negative_refuted",
    "C17_skip_refuted"
   ],
   "note": "two or more residual dimensions: result inside the projection, unit normals, error bounded by tol plus 1e-5 of the diameter, vertices affinely independent, termination; exact and total for one dimension; an error of tol alone is refuted; LinAlgError / QhullError outcomes characterised; out-of-range dimensions raise IndexError, a negative or repeated first dimension TypeError (C17_index_errors, C17_negative_refuted)"
  },
  {
   "property": "C18",
   "status": "proved",
   "theorems": [
    "C18_lp_optimality"
   ],
   "note": "exact arithmetic, exact nnls and pinv (proved to exist); any number of constraints and variables"
  },
  {
   "property": "C19",
   "status": "partial",
   "theorems": [
    "C19_lp_none",
    "C19_lp_none_iff_refuted"
   ],
   "note": "literal iff refuted (tolerance); proved: None implies infeasible or unbounded, Some implies primal/dual feasibility and gap within tol"
  },
  {
   "property": "C20",
   "status": "proved",
   "theorems": [
    "C20_lp_multipliers"
   ],
   "note": "KKT system and strong duality for every solvable LP"
  },
  {
   "property": "C21",
   "status": "proved",
   "theorems": [
    "C21_qp_optimality",
    "C21_qp_not_pd"
   ],
   "note": "optimality, uniqueness, KKT multipliers; LinAlgError if H is not positive definite"
  },
  {
   "property": "C22",
   "status": "partial",
   "theorems": [
    "C22_qp_none_iff",
    "C22_qp_infeasible_none",
    "C22_qp_none_refuted"
   ],
   "note": "literal iff refuted; exact criterion for None proved (C22_qp_none_iff), infeasible implies None"
  },
  {
   "property": "C23",
   "status": "partial",
   "theorems": [
    "C23_lp_active_set",
    "C23_qp_active_set",
    "C23_active_set_refuted"
   ],
   "note": "reported indices are tight; converse refuted under degeneracy"
  },
  {
   "property": "C24",
   "status": "partial",
   "theorems": [
    "C24_model_cut",
    "C24_model_partial",
    "C24_tiny_refuted",
    "C24_lone_equalities"
   ],
   "note": "Proved for programs without nonzero entries of absolute value <= 1e-9 and with C, d both given or both omitted (in general the model is the program with such entries replaced by zero: C24_model_cut). The literal statement is false: C24_tiny_refuted, C24_lone_equalities."
  },
  {
   "property": "C25",
   "status": "partial",
   "theorems": [
    "C25_dispatch_partial",
    "C25_lone_refuted"
   ],
   "note": "Dispatch and exceptions proved for all solver names; with solver gurobi a lone C or d is accepted (C25_lone_refuted), and drake raises NameError because its import is commented out."
  },
  {
   "property": "C26",
   "status": "proved",
   "theorems": [
    "C26_affine_simulation",
    "C26_linear_simulation",
    "C26_closed_loop",
    "C26_wrong_sizes"
   ],
   "note": "linear, affine and closed-loop simulation"
  },
  {
   "property": "C27",
   "status": "proved",
   "theorems": [
    "C27_condensed_dynamics",
    "C27_affine_condense",
    "C27_linear_condense",
    "C27_empty_sequence_raises",
    "C27_unknown_mode_raises"
   ],
   "note": "every coherent list of systems and non-empty mode sequence; corollaries for LinearSystem/AffineSystem.condense"
  },
  {
   "property": "C28",
   "status": "partial",
   "theorems": [
    "C28_simulation_partial",
    "C28_exact",
    "C28_equalities_refuted"
   ],
   "note": "The literal claim is refuted by a domain with two equalities (contains is wrong, C06). C28_exact: returned runs and the ValueError characterised for all domains with an inequality, in terms of what contains accepts; C28_simulation_partial: the literal claim for at most one equality per domain"
  },
  {
   "property": "C29",
   "status": "partial",
   "theorems": [
    "C29_well_posed_partial",
    "C29_bounded",
    "C29_unbounded_refuted"
   ],
   "note": "Proved for domains given by inequalities whose pairwise intersections do not contain arbitrarily large balls (in particular bounded domains). Refuted otherwise: radius is None and the comparison raises TypeError."
  },
  {
   "property": "C30",
   "status": "partial",
   "theorems": [
    "C30_mcais",
    "C30_mcais_exact_partial",
    "C30_tolerance_refuted",
    "C30_linear_mcais",
    "C30_equalities_refuted"
   ],
   "note": "Proved for X given by inequalities, bounded and containing the origin: before the final redundancy removal the set is exact; after it, exact up to tol, and exactly exact under a redundancy gap. The literal claim is refuted by the tolerance of the redundancy removal and by the ignored equalities of D."
  },
  {
   "property": "C31",
   "status": "partial",
   "theorems": [
    "C31_mcais_halts_iff",
    "C31_stable_halts_partial",
    "C31_marginal_refuted",
    "C31_stable_refuted"
   ],
   "note": "Exact characterization of termination, and termination for convergent A with b > 0. The literal claim is refuted twice (marginally stable A; stable A with the origin on the boundary)."
  },
  {
   "property": "C32",
   "status": "partial",
   "theorems": [
    "C32_exists",
    "C32_unique",
    "C32_solve_dare",
    "C32_optimal_partial",
    "C32_semidefinite_refuted"
   ],
   "note": "Optimality over infinite horizons is proved for positive definite Q (and R); for positive semidefinite Q, which the docstring allows, it is refuted. The Riccati solver itself is an oracle: its result is assumed to satisfy the equation and be positive semidefinite; C32_exists shows that such a solution exists for every controllable system and that the least one gives the optimal value even for semidefinite Q, C32_unique that it is unique for positive definite Q. Uniqueness of the optimiser over infinite horizons follows from the finite horizon identity in C32_solve_dare."
  },
  {
   "property": "C33",
   "status": "proved",
   "theorems": [
    "C33_controllable"
   ],
   "note": "with exact rank computation"
  },
  {
   "property": "C34",
   "status": "proved",
   "theorems": [
    "C34_explicit_euler",
    "C34_euler_rejects",
    "C34_solutions",
    "C34_zoh_exact",
    "C34_zoh_compose",
    "C34_euler_error",
    "C34_euler_compose_refuted",
    "C34_linear_system",
    "C34_affine_system",
    "C34_zero_order_hold"
   ],
   "note": "scipy.linalg.expm is an oracle assumed to return the limit of the exponential series (its existence is proved); solutions are differentiable on [0,h]."
  },
  {
   "property": "C35",
   "status": "partial",
   "theorems": [
    "C35_sampled_linear",
    "C35_euler_affine",
    "C35_affine_expression",
    "C35_non_affine",
    "C35_affine_accepted",
    "C35_add_symbolic_inequality",
    "C35_add_symbolic_equality",
    "C35_polyhedron",
    "C35_affine_system",
    "C35_affine_system_accepted",
    "C35_linear_system",
    "C35_sampled_system",
    "C35_irregular_refuted",
    "C35_offset_refuted"
   ],
   "note": "proved for all regular expressions (sums, products, powers, sin, cos, exp, quotients and roots without singularities), polyhedra and systems, sampled systems; refuted for expressions with singularities and for tiny offsets of linear systems; relative to a contract on sympy's conversions"
  },
  {
   "property": "C36",
   "status": "partial",
   "theorems": [
    "C36_linear_constructor",
    "C36_affine_constructor",
    "C36_pwa_constructor",
    "C36_polyhedron_constructor",
    "C36_polyhedron_columns_refuted"
   ],
   "note": "exact acceptance conditions of all constructors proved; Polyhedron accepts C with the wrong number of columns (refuted)"
  },
  {
   "property": "C37",
   "status": "partial",
   "theorems": [
    "C37_condensed_cost_partial",
    "C37_asymmetric_refuted"
   ],
   "note": "Proved for symmetric Q and P; false otherwise (refutation included), because the condensed cross terms use Q instead of its symmetric part."
  },
  {
   "property": "C38",
   "status": "partial",
   "theorems": [
    "C38_condensed_constraints_partial"
   ],
   "note": "Proved for the inequalities of all sets, hence the literal statement for sets without equalities; equalities are ignored by the code (C50)."
  },
  {
   "property": "C39",
   "status": "partial",
   "theorems": [
    "C39_feedforward_partial",
    "C39_far_refuted"
   ],
   "note": "Proved with the exact condition under which (None, None) is returned; the solver threshold 1e-7 rejects feasible problems whose optimum is 5e13 above the unconstrained one (refutation included). Sets without equalities."
  },
  {
   "property": "C40",
   "status": "proved",
   "theorems": [
    "C40_region_optimal",
    "C40_region_exact",
    "C40_region_returned"
   ],
   "note": "region_exact and region_returned give the exact set of parameters and of active sets"
  },
  {
   "property": "C41",
   "status": "partial",
   "theorems": [
    "C41_lookup",
    "C41_unconstrained_refuted"
   ],
   "note": "Holds for regions with at least one inequality (tolerance 1e-7 of contains explicit); a program without constraints makes the lookup raise (refuted)."
  },
  {
   "property": "C42",
   "status": "partial",
   "theorems": [
    "C42_sound",
    "C42_agreement",
    "C42_tolerance_refuted",
    "C42_far_refuted",
    "C42_tolerance_bound",
    "C42_tolerance_constants"
   ],
   "note": "Soundness of every region proved; agreement with the on-line solver proved where the region contains x exactly, refuted within the tolerance and for far minimizers; within the tolerance the constraint violation, the multipliers and the suboptimality are bounded (C42_tolerance_bound). The input itself is within a constant times the tolerance of the optimal one (C102)."
  },
  {
   "property": "C43",
   "status": "partial",
   "theorems": [
    "C43_one_parameter_partial",
    "C43_gap_refuted",
    "C43_frontier_partial",
    "C43_cover_refuted"
   ],
   "note": "The literal claim is refuted: the exploration starts at the origin (C43_cover_refuted) and jumps over regions narrower than the step (C43_gap_refuted). What termination guarantees is C43_frontier_partial; with one parameter, a feasible origin and clear answers of the QP solver every feasible parameter is within step + (m+1) 1e-7 of a region found (C43_one_parameter_partial)."
  },
  {
   "property": "C44",
   "status": "partial",
   "theorems": [
    "C44_recursive_feasibility",
    "C44_mcais_terminal_partial"
   ],
   "note": "Recursive feasibility proved for all runs of the closed loop; the terminal set of mcais is proved invariant unless a redundancy is within the solver tolerance 1e-7. Sets without equalities."
  },
  {
   "property": "C45",
   "status": "proved",
   "theorems": [
    "C45_decrease"
   ],
   "note": "For sets without equalities (with equalities the controller solves the problem without them, C50) and a Riccati solution returned by scipy."
  },
  {
   "property": "C46",
   "status": "proved",
   "theorems": [
    "C46_lqr_bound"
   ],
   "note": "For sets without equalities and a Riccati solution returned by scipy."
  },
  {
   "property": "C47",
   "status": "partial",
   "theorems": [
    "C47_encoding_partial",
    "C47_encoding",
    "C47_equalities_refuted"
   ],
   "note": "C47_encoding proves the equivalence for every horizon, state and point when the domains (non-empty, bounded, each with at least one inequality row) and the terminal set have no equalities; C47_encoding_partial gives both directions in general with the equalities dropped on one side; that the equalities are ignored is C47_equalities_refuted. Solver oracles assumed exact (exact_np)."
  },
  {
   "property": "C48",
   "status": "partial",
   "theorems": [
    "C48_feedforward_partial",
    "C48_horizon_zero",
    "C48_mpqp"
   ],
   "note": "C48_feedforward_partial: optimality over all input and mode sequences, the returned cost, the None case and feedback, for domains without equalities (with them: C47_equalities_refuted) and programs without entries below 1e-9, Gurobi assumed exact on the program built (gurobi_solves). C48_mpqp: the mpQP of the mode sequence has the same minimizer and cost (Q, P symmetric psd, R pd)."
  },
  {
   "property": "C49",
   "status": "partial",
   "theorems": [
    "C49_bigM_exact",
    "C49_raises_partial",
    "C49_unbounded_refuted",
    "C49_empty_refuted"
   ],
   "note": "C49_bigM_exact: constants are the attained extreme values for non-empty domains with bounded directions. C49_raises_partial: the constructor raises for domains infeasible beyond the solver tolerance and for rays steeper than the tolerance; below the tolerance it does not raise: C49_unbounded_refuted, C49_empty_refuted."
  },
  {
   "property": "C50",
   "status": "partial",
   "theorems": [
    "C50_equalities_ignored",
    "C50_equalities_refuted"
   ],
   "note": "False of the code: refutations for the controllers and for mcais; proved that the controller is the one of the inequalities alone."
  },
  {
   "property": "C51",
   "status": "proved",
   "theorems": [
    "C51_plane",
    "C51_unique"
   ],
   "note": "For every offset the function either raises LinAlgError (np.linalg.solve on a singular matrix) or returns a unit normal and a nonnegative right-hand side satisfied by all the points; C51_unique says for exactly which offsets it returns. Contract of numpy.linalg.solve assumed (solve_ok)."
  },
  {
   "property": "C52",
   "status": "partial",
   "theorems": [
    "C52_same_rows_partial",
    "C52_sound",
    "C52_distinct",
    "C52_duplicates_refuted",
    "C52_zero_row_refuted",
    "C52_same_vectors_partial",
    "C52_same_vectors_raises",
    "C52_widths",
    "C52_widths_refuted"
   ],
   "note": "Exact characterization of the returned value (C52_same_rows_partial), soundness of True (C52_sound), and the literal property when rows are distinguishable (C52_distinct). The literal property is false: duplicate rows and, with normalize, zero rows give False for identical matrices (C52_duplicates_refuted, C52_zero_row_refuted). Matrices with different numbers of columns: C52_widths (ValueError, or broadcasting and possibly True: C52_widths_refuted)."
  },
  {
   "property": "C53",
   "status": "partial",
   "theorems": [
    "C53_contract",
    "C53_independent",
    "C53_complete_partial",
    "C53_rank_refuted",
    "C53_tolerance_refuted"
   ],
   "note": "Independence of the returned rows is proved for every matrix (C53_independent). The cardinality claim is false (C53_rank_refuted, C53_tolerance_refuted); C53_complete_partial says exactly when all the rows are returned. Contract of numpy.linalg.qr assumed for the matrix at hand (qr_ok)."
  },
  {
   "property": "C54",
   "status": "partial",
   "theorems": [
    "C54_feasible_set_partial",
    "C54_one_parameter",
    "C54_unbounded_refuted"
   ],
   "note": "through C17 for polytopes of feasible pairs (exact for one parameter); unbounded feasible pairs refuted"
  },
  {
   "property": "C55",
   "status": "proved",
   "theorems": [
    "C55_value_model",
    "C55_mutation",
    "C55_visible",
    "C55_intersection_shares_nothing",
    "C55_derived",
    "C55_sets",
    "C55_same_rows",
    "C55_shared_matrix_refuted",
    "C55_view_refuted"
   ],
   "note": "C55_value_model: the heap model refines the value model; C55_mutation: add_*/remove_redundant/queries on copies or intersections change no earlier polyhedron or array; C55_visible: normalize is visible only through shared entries; C55_derived and C55_sets add histories with normalize; C55_shared_matrix_refuted and C55_view_refuted show that the set of a polyhedron may change when only part of a pair (A,b) is shared. Writes of the caller into arrays returned by center/vertices are not modelled."
  },
  {
   "property": "C56",
   "status": "partial",
   "theorems": [
    "C56_one_dimension_partial",
    "C56_many_dimensions",
    "C56_cover",
    "C56_plant_one_dimension_partial",
    "C56_plant_many_dimensions",
    "C56_order_refuted",
    "C56_equalities_refuted",
    "C56_isclose_refuted",
    "C56_plant_refuted"
   ],
   "note": "every cell contains exactly the points of X closest to its generator and the cells cover X, for polyhedra X without equalities and coordinates whose spread exceeds the tolerance of isclose; order of the cells preserved for points spread in several coordinates (relative to a contract on scipy.spatial.Voronoi) and for increasing 1-D points; the order is refuted for other 1-D points, the equalities and the tolerance too"
  },
  {
   "property": "C57",
   "status": "partial",
   "theorems": [
    "C57_entry",
    "C57_small_refuted",
    "C57_example_controller",
    "C57_one_mode_refuted",
    "C57_uses_Q",
    "C57_terminal_cost_refuted"
   ],
   "note": "The example controller class solves the finite-horizon problem with the cost matrices it is given, for all data with at least two modes whose big-M values are not in (0, 1e-6) and exact solvers (C57_example_controller, C57_entry); a big-M value in that range does not relax its row (C57_small_refuted). The literal claim is refuted: the wrapper Controller passes Q as P and returns a suboptimal input (C57_terminal_cost_refuted, C57_uses_Q), and a system with a single mode raises IndexError (C57_one_mode_refuted)."
  },
  {
   "property": "C58",
   "status": "proved",
   "theorems": [
    "C58_closed_loop"
   ],
   "note": "Start states with V below 5e13 (above, the solver threshold applies); sets without equalities."
  },
  {
   "property": "C59",
   "status": "partial",
   "theorems": [
    "C59_explicit_mpc"
   ],
   "note": "At states contained exactly in the region found; within the lookup tolerance 1e-7 the returned inputs need not be optimal, and an input is returned at infeasible states (C42_tolerance_refuted, C78_outside_refuted)."
  },
  {
   "property": "C60",
   "status": "proved",
   "theorems": [
    "C60_contract",
    "C60_integer_contract",
    "C60_gurobi_lp",
    "C60_gurobi_qp",
    "C60_gurobi_miqp"
   ],
   "note": "Assumes Gurobi is exact on the model built (gurobi_exact) and no tiny entries."
  },
  {
   "property": "C61",
   "status": "proved",
   "theorems": [
    "C61_solvers_agree"
   ],
   "note": "Assumes exact numpy/scipy oracles and Gurobi exact on the models built, and no tiny entries."
  },
  {
   "property": "C62",
   "status": "proved",
   "theorems": [
    "C62_from_convex_hull",
    "C62_from_convex_hull_total"
   ],
   "note": "relative to the contract of scipy ConvexHull (hull_ok); raises only for points on a common hyperplane"
  },
  {
   "property": "C63",
   "status": "partial",
   "theorems": [
    "C63_guess",
    "C63_rows",
    "C63_neighbour",
    "C63_initial",
    "C63_guess_refuted"
   ],
   "note": "The literal claim is false: the code flips the number of the row of the region, while the rows are ordered with the active constraints first (C63_guess_refuted). C63_rows gives the constraint behind each row, C63_neighbour proves the claim for the guess that flips that constraint, C63_initial that both agree when the active constraints are the first ones. The guess is verified before it is used, so the results stay right (C42)."
  },
  {
   "property": "C64",
   "status": "proved",
   "theorems": [
    "C64_facet_center",
    "C64_facet_center_1d",
    "C64_step"
   ],
   "note": "In two or more dimensions for facets with bounded balls; in one dimension the point of the row."
  },
  {
   "property": "C65",
   "status": "partial",
   "theorems": [
    "C65_drake_lp",
    "C65_multipliers_refuted"
   ],
   "note": "The literal claim is false: multipliers may be negative and belong to constraints that are not active (C65_multipliers_refuted). C65_drake_lp proves everything else, and the full KKT conditions when the nearly active constraints and the equalities are independent. Drake assumed exact on the program built (k_ok), pseudo-inverse with two of the Moore-Penrose equations."
  },
  {
   "property": "C66",
   "status": "partial",
   "theorems": [
    "C66_drake_qp",
    "C66_near_active_refuted",
    "C66_dependent_refuted"
   ],
   "note": "The literal claim is false: constraints with slack below 1e-5 are treated as active (C66_near_active_refuted) and dependent active constraints raise LinAlgError (C66_dependent_refuted). C66_drake_qp is the exact characterisation; full KKT conditions when the active constraints are tight and independent."
  },
  {
   "property": "C67",
   "status": "proved",
   "theorems": [
    "C67_drake_miqp",
    "C67_lone_equalities"
   ],
   "note": "Drake assumed exact on the program built; nc at most the number of variables."
  },
  {
   "property": "C68",
   "status": "partial",
   "theorems": [
    "C68_vertices",
    "C68_implicit_refuted",
    "C68_thin",
    "C68_empty",
    "C68_segment",
    "C68_zero_row_refuted"
   ],
   "note": "Proved for every polytope with a ball of radius tol in which every inequality is strict at some point (two or more degrees of freedom: C68_vertices; one degree of freedom, with the redundancy gap of C16: C68_segment), for thin polytopes (C68_thin) and empty ones without constant rows (C68_empty). The literal claim is refuted: an inequality that holds with equality on the whole polytope, such as 0 x <= 0, makes vertices raise QhullError (C68_implicit_refuted for every such polytope, C68_zero_row_refuted with a witness)."
  },
  {
   "property": "C69",
   "status": "partial",
   "theorems": [
    "C69_decrease",
    "C69_closed_loop",
    "C69_convergence",
    "C69_practical"
   ],
   "note": "C69_decrease, C69_closed_loop: recursive feasibility, domains and decrease of the value at every step, for every PWA system, cost, terminal set and horizon, as long as Gurobi solves the (sharp) programs along the loop. C69_convergence: convergence if it solves all of them; since entries below 10^-9 are dropped, near the origin that cannot be expected, and C69_practical gives entry into every ball outside of which the programs are solved. Missing: convergence to the origin itself when Gurobi's data are not sharp."
  },
  {
   "property": "C70",
   "status": "partial",
   "theorems": [
    "C70_design"
   ],
   "note": "C70_design: every call succeeds, D is the box, the terminal set contains the largest invariant set, and if it is invariant the loop of the notebook runs forever, respects the bounds and converges. Missing: invariance of the terminal set when mcais decided a redundancy within the tolerance 1e-7 (then the set can be larger, C30_tolerance_refuted), and values above 5e13."
  },
  {
   "property": "C71",
   "status": "partial",
   "theorems": [
    "C71_inputs",
    "C71_states",
    "C71_outputs",
    "C71_errors",
    "C71_state_space",
    "C71_text_refuted"
   ],
   "note": "Proved for the three time plots (C71_inputs, C71_states, C71_outputs) and for the line and the marker of plot_state_space_trajectory (C71_state_space). The labels are false of the code: they are placed at components 0 and 1 whatever dim is (C71_text_refuted). C71_errors: wrong dim, empty data, empty list of bounds."
  },
  {
   "property": "C72",
   "status": "partial",
   "theorems": [
    "C72_contract",
    "C72_plot",
    "C72_solid",
    "C72_thin_refuted",
    "C72_empty",
    "C72_errors",
    "C72_zero_row_refuted"
   ],
   "note": "C72_plot: for every polyhedron whose vertices were computed, the path goes around exactly the projection of their hull, or Qhull raises because the projection is on one line. C72_solid: for full-dimensional polytopes (as in C68) this is the projection of the polytope. False of the code for polytopes thinner than the tolerance (nothing drawn, C72_thin_refuted) and with rows of zeros (QhullError, C72_zero_row_refuted). C72_contract: the contract of ConvexHull.vertices in the plane can be met for every list of points."
  },
  {
   "property": "C73",
   "status": "partial",
   "theorems": [
    "C73_partition",
    "C73_errors",
    "C73_value_function"
   ],
   "note": "C73_partition for critical regions that can be plotted (C72), C73_value_function for feasible sets returned by get_feasible_set (C54) with vertices not on a line, C73_errors. Missing: what contour does with None (states outside all regions)."
  },
  {
   "property": "C74",
   "status": "partial",
   "theorems": [
    "C74_convex_hull",
    "C74_hull_drawn_partial",
    "C74_big_m_partial",
    "C74_big_m_refuted"
   ],
   "note": "Convex-hull method proved (C74_convex_hull; the drawn set up to the error of project_to, C74_hull_drawn_partial). The big-M cell has the wrong sign for the second disjunct: refuted, and what it computes is characterised."
  },
  {
   "property": "C75",
   "status": "partial",
   "theorems": [
    "C75_mcais_demo_partial"
   ],
   "note": "C75_mcais_demo_partial: every call succeeds, X_cl is the set of admissible states, O_inf contains every state whose closed-loop trajectory stays in X_cl, all trajectories converge; O_inf contains no other states unless mcais decided a redundancy within the tolerance 1e-7 (then it can, C30_tolerance_refuted)."
  },
  {
   "property": "C76",
   "status": "partial",
   "theorems": [
    "C76_design",
    "C76_run_partial",
    "C76_mode_refuted",
    "C76_along_partial"
   ],
   "note": "C76_design: every call succeeds and the terminal ingredients are those C69 needs (invariance unless mcais used its tolerance). C76_run_partial: the loop never fails, respects the domains and approaches the origin if the modes agree where get_mode's tolerance 1e-7 could choose another one; C76_along_partial asks this only at the pairs (x, u) met. For the notebook's own system they disagree in a strip of width 1e-7 (C76_mode_refuted; bounds in C91). Gurobi is an oracle that solves the programs met."
  },
  {
   "property": "C77",
   "status": "partial",
   "theorems": [
    "C77_terminates_partial",
    "C77_terminates_refuted"
   ],
   "note": "The literal property is refuted: the loop runs forever for a program with a multiplier below the tolerance 1e-7 of the QP solver (C77_terminates_refuted). Proved: if the multipliers at the explored points are zero or above 1e-7 the loop ends within 2 + 2^m (m+1) iterations with pairwise different active sets, or raises for a region without facets or a facet without center."
  },
  {
   "property": "C78",
   "status": "partial",
   "theorems": [
    "C78_agreement",
    "C78_explicit_loop_partial",
    "C78_outside_refuted"
   ],
   "note": "Agreement proved wherever the region found contains the state and the on-line solver does not give up (costs below 5e13); closed loop with feedback_explicit proved (constraints, decrease, convergence, no bound on the cost) when the regions contain all feasible states. The literal claim is refuted outside the regions (lookup tolerance 1e-7)."
  },
  {
   "property": "C79",
   "status": "partial",
   "theorems": [
    "C79_single_valued",
    "C79_continuous",
    "C79_value_convex_partial",
    "C79_mpc_convex",
    "C79_convex_refuted",
    "C79_lookup_refuted"
   ],
   "note": "Single-valuedness and continuity on the union of the regions proved for all programs (C79_single_valued, C79_continuous); convexity of the value under joint convexity (C79_value_convex_partial), unconditionally for the linear MPC controller (C79_mpc_convex). The lookup function itself jumps because of its tolerance (C79_lookup_refuted); without joint convexity the value is not convex (C79_convex_refuted). Its jumps are at most a constant times the tolerance (C102_jump)."
  },
  {
   "property": "C80",
   "status": "proved",
   "theorems": [
    "C80_infinite_horizon",
    "C80_longer_horizon",
    "C80_exact_horizon",
    "C80_short_horizon_refuted"
   ],
   "note": "Q positive definite and, for feedforward to answer at all, a cost below 1/2 x'P x + 5e13 (the infeasibility threshold of pnnls). A short horizon gives a larger cost (refutation of the claim without 'from some horizon on')."
  },
  {
   "property": "C81",
   "status": "proved",
   "theorems": [
    "C81_pieces",
    "C81_lipschitz",
    "C81_mpc_law"
   ],
   "note": "Regions of all active sets, not only those visited by explicit_solve (their coverage is C43). For the controller: wherever feedforward answers, which excludes the states whose optimal cost exceeds the infeasibility threshold of pnnls."
  },
  {
   "property": "C82",
   "status": "proved",
   "theorems": [
    "C82_coordinates",
    "C82_representation",
    "C82_symmetry"
   ],
   "note": "Sets without equalities (with them the controller is that of the inequalities alone, C50)."
  },
  {
   "property": "C83",
   "status": "partial",
   "theorems": [
    "C83_scaling",
    "C83_scaling_refuted"
   ],
   "note": "Refuted: the threshold of pnnls on the cost is absolute, so scaling changes the states at which None is returned (C83_scaling_refuted). Proved: where both controllers answer the inputs agree and the cost scales, and the exact condition for None with the factor."
  },
  {
   "property": "C84",
   "status": "proved",
   "theorems": [
    "C84_one_dynamics"
   ],
   "note": "The linear controller alone also returns None where the optimal cost exceeds the unconstrained one by 5e13 (C39): stated in C84_one_dynamics. gurobi_solves: no entry below 1e-9 and an exact answer."
  },
  {
   "property": "C85",
   "status": "proved",
   "theorems": [
    "C85_closed_loop",
    "C85_convergence"
   ],
   "note": "Terminal ingredients as for C69; big-M constants not within 1e-6 above zero; drake exact on the programs of the loop (drake_solves)."
  },
  {
   "property": "C86",
   "status": "partial",
   "theorems": [
    "C86_model",
    "C86_closed_loop",
    "C86_sampled_partial",
    "C86_hold_refuted"
   ],
   "note": "Model and controller: proved. Convergence proved if the input is held for the sampling time of the model; the notebook holds it twice as long, for which it is refuted. On a nonlinear plant, whose linearization errors the model ignores, convergence is proved near the origin (C98_notebook, C98_cart)."
  },
  {
   "property": "C87",
   "status": "proved",
   "theorems": [
    "C87_history",
    "C87_rejected"
   ],
   "note": "history independence for every finite sequence of calls, failed ones included; drake is a function of the program (oracle)."
  },
  {
   "property": "C88",
   "status": "partial",
   "theorems": [
    "C88_region_partial",
    "C88_interval"
   ],
   "note": "C88_interval: exact for one state. C88_region_partial: two or more states, up to the error of the projection (states outside the polyhedron by less than the error are not classified). Costs below the solver threshold are a hypothesis in both."
  },
  {
   "property": "C89",
   "status": "partial",
   "theorems": [
    "C89_intersection",
    "C89_intersection_refuted",
    "C89_product",
    "C89_tolerance",
    "C89_members",
    "C89_normalize_refuted",
    "C89_inclusion",
    "C89_product_refuted"
   ],
   "note": "Intersection and product: accepted by both implies accepted, with equivalence if at most one operand has equalities (refuted for two, because the equality test takes the absolute value of the maximum residual). Monotone in the tolerance. normalize keeps the points of the set accepted and is refuted for other points. Inclusion: for non-empty bounded P1 and P2 with at most one equality. contains raises for polyhedra without inequalities (C06), so the operands have one."
  },
  {
   "property": "C90",
   "status": "proved",
   "theorems": [
    "C90_linear_affine",
    "C90_composition",
    "C90_one_dynamics",
    "C90_superposition",
    "C90_difference",
    "C90_discretised"
   ],
   "note": "from_continuous with zero_order_hold assumes the exact matrix exponential; C90_one_dynamics says when the one-mode piecewise affine system returns (its domain has to accept every reached pair)."
  },
  {
   "property": "C91",
   "status": "proved",
   "theorems": [
    "C91_pendulum",
    "C91_cart",
    "C91_controllable",
    "C91_pendulum_loop",
    "C91_cart_loop",
    "C91_assert"
   ],
   "note": "exact numpy/scipy/Gurobi contracts; terminal set invariant as in C76_design; C91_pendulum and C91_cart bound the effect of get_mode's tolerance."
  },
  {
   "property": "C92",
   "status": "proved",
   "theorems": [
    "C92_spectral_radius",
    "C92_attractive_iff",
    "C92_test",
    "C92_halts",
    "C92_marginal_refuted",
    "C92_lqr",
    "C92_libraries"
   ],
   "note": "C92_spectral_radius, C92_attractive_iff, C92_test, C92_halts, C92_lqr, with an exact eig; C92_libraries: the contracts of eig and dare can be met for all sizes. The boundary case of modulus one is accepted and decides nothing about termination (C92_marginal_refuted)."
  },
  {
   "property": "C93",
   "status": "proved",
   "theorems": [
    "C93_membership",
    "C93_points",
    "C93_binary64",
    "C93_float64",
    "C93_far_refuted",
    "C93_unrounded",
    "C93_clear"
   ],
   "note": "for every rounding function and order of evaluation; float64 from Flocq; data of large size refuted separately (C93_far_refuted)"
  },
  {
   "property": "C94",
   "status": "proved",
   "theorems": [
    "C94_pwa",
    "C94_total",
    "C94_linear",
    "C94_stable",
    "C94_affine",
    "C94_contraction",
    "C94_closed_loop"
   ],
   "note": "for every rounding function and order of evaluation; overflow not modelled"
  },
  {
   "property": "C95",
   "status": "proved",
   "theorems": [
    "C95_equations",
    "C95_energy",
    "C95_notebook",
    "C95_error",
    "C95_walls",
    "C95_conservation",
    "C95_local",
    "C95_total",
    "C95_stabilized"
   ],
   "note": "Exact arithmetic; MATLAB's symbolic toolbox modelled by expressions with derivatives. The plant of the stability claim is the explicit Euler discretization of the nonlinear equations."
  },
  {
   "property": "C96",
   "status": "proved",
   "theorems": [
    "C96_feedback",
    "C96_mpc",
    "C96_level",
    "C96_hybrid_feedback",
    "C96_hybrid_loop",
    "C96_notebook",
    "C96_cart"
   ],
   "note": "Linear controller: feedback is the gain on the whole terminal set and the loop with a nonlinear plant converges geometrically near the origin (C96_feedback, C96_mpc). Hybrid controller: explicit region (C96_level), radius (C96_hybrid_feedback), loop (C96_hybrid_loop, C96_notebook), for the times at which Gurobi meets its contract. Cart-pole: C96_cart."
  },
  {
   "property": "C97",
   "status": "proved",
   "theorems": [
    "C97_cart_controllable",
    "C97_cart",
    "C97_euler_refuted",
    "C97_between",
    "C97_error",
    "C97_sampled",
    "C97_gain",
    "C97_lqr",
    "C97_mpc",
    "C97_hybrid"
   ],
   "note": "zero_order_hold gives the derivative of the sampled nonlinear plant; LQR, MPC and hybrid MPC designed on it stabilize the continuous-time plant, at all times (exact matrix exponential); instance for the cart-pole of cart_pole_dynamics.m; refuted for explicit_euler (C97_euler_refuted)"
  },
  {
   "property": "C98",
   "status": "proved",
   "theorems": [
    "C98_notebook",
    "C98_cart",
    "C98_law",
    "C98_feedback",
    "C98_hybrid",
    "C98_drake",
    "C98_sampled_mpc",
    "C98_sampled_hybrid"
   ],
   "note": "feedback is K x near the origin for the linear, hybrid and drake controllers; the controller of the notebook stabilizes the nonlinear plant locally when its input is held for h (exact solvers and matrix exponential, reachability of the origin in N steps; for the cart-pole this is proved for N >= 4)"
  },
  {
   "property": "C99",
   "status": "partial",
   "theorems": [
    "C99_lookup",
    "C99_covered",
    "C99_explicit",
    "C99_feedback",
    "C99_float64",
    "C99_stored",
    "C99_unrounded",
    "C99_far_refuted"
   ],
   "note": "Proved for every table produced by explicit_solve, every rounding function with bounded relative and absolute error and every order of summation, with explicit conditions on the rounding errors; float64 up to 999 parameters and terms up to 10^5. Without such a bound it is false (C99_far_refuted). V(x) is C103; the off-line computation is not rounded."
  },
  {
   "property": "C100",
   "status": "partial",
   "theorems": [
    "C100_robust",
    "C100_local",
    "C100_margin_refuted"
   ],
   "note": "Proved with Q positive definite and costs below 5e13 (without them convergence fails). C100_robust takes the margin (every state of cost at most rho has a neighbourhood of states with solutions of bounded cost) as a hypothesis, which C100_margin_refuted shows to be necessary; C100_local needs none but is local."
  },
  {
   "property": "C101",
   "status": "partial",
   "theorems": [
    "C101_first",
    "C101_loop",
    "C101_runs"
   ],
   "note": "Proved for every arithmetic of precision at least u0, a number that depends on the problem and is not computed; the off-line computation (matrices, table) is exact. C101_first: exact arithmetic."
  },
  {
   "property": "C102",
   "status": "proved",
   "theorems": [
    "C102_program",
    "C102_controller",
    "C102_exact",
    "C102_loop",
    "C102_value",
    "C102_jump"
   ],
   "note": "For data meeting the documented assumptions (mpc_data) and exact solvers; the input is the first component of the sequence, in the largest-entry norm. Where no admissible sequence exists there is no optimal input to compare with. C102_loop carries the bound into the closed loop under the margin hypothesis of C100_robust."
  },
  {
   "property": "C103",
   "status": "proved",
   "theorems": [
    "C103_form",
    "C103_explicit",
    "C103_float64",
    "C103_feedforward",
    "C103_unrounded"
   ],
   "note": "For mpQP data meeting the documented assumptions and an off-line computation in exact arithmetic (the table is the exact one); every rounding function with bounded relative and absolute error; where the program is infeasible there is no optimal value to compare with. In float64 the rounding part is below 2.5e-8 up to 498 parameters and terms up to 10^5 (C103_float64)."
  },
  {
   "property": "C104",
   "status": "proved",
   "theorems": [
    "C104_simulation",
    "C104_equivalent",
    "C104_modes",
    "C104_weights",
    "C104_longer_horizon"
   ],
   "note": "Hypotheses of C48: domains and terminal set without equalities, Gurobi exact on both programs, which have no nonzero entries below 1e-9."
  },
  {
   "property": "C105",
   "status": "proved",
   "theorems": [
    "C105_one_per_modes",
    "C105_agree",
    "C105_solvers",
    "C105_loop",
    "C105_tie_refuted"
   ],
   "note": "Hypotheses of C48 and C57 on the data (no equalities, bounded domains, big-M constants not in (0, 1e-6)) and exact solvers. C105_tie_refuted: the condition that the modes are equal cannot be dropped."
  },
  {
   "property": "C106",
   "status": "partial",
   "theorems": [
    "C106_map",
    "C106_monotone",
    "C106_intersection",
    "C106_again",
    "C106_power",
    "C106_description_refuted",
    "C106_product"
   ],
   "note": "Number of iterations: proved. Results: proved if no redundancy is within the tolerance 1e-7 of the redundancy removal; without it they depend on the description of the set (C106_description_refuted)."
  }
 ]
}