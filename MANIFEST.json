{
 "claims": [
  {
   "property": "C01",
   "status": "proved",
   "theorems": [
    "C01_greens_symmetries"
   ],
   "note": "Elliptic integrals arbitrary."
  },
  {
   "property": "C02",
   "status": "proved",
   "theorems": [
    "C02_net_vertical_force"
   ],
   "note": ""
  },
  {
   "property": "C03",
   "status": "proved",
   "theorems": [
    "C03_amp_turns",
    "C03_superposition"
   ],
   "note": "PreCalcCoil has no filaments and is excluded."
  },
  {
   "property": "C04",
   "status": "partial",
   "theorems": [
    "C04_turns_ignored",
    "C04_turns_refuted",
    "C04_turns_scale"
   ],
   "note": "REFUTED: MultiCoil at a single point and PreCalcCoil ignore turns. Proved for Coil, ShapedCoil, FilamentCoil."
  },
  {
   "property": "C05",
   "status": "proved",
   "theorems": [
    "C05_linear_response"
   ],
   "note": ""
  },
  {
   "property": "C06",
   "status": "proved",
   "theorems": [
    "C06_control_round_trip"
   ],
   "note": ""
  },
  {
   "property": "C07",
   "status": "proved",
   "theorems": [
    "C07_members_follow",
    "C07_members_follow_machine"
   ],
   "note": ""
  },
  {
   "property": "C08",
   "status": "proved",
   "theorems": [
    "C08_force_without_own_field",
    "C08_no_side_effects"
   ],
   "note": ""
  },
  {
   "property": "C09",
   "status": "partial",
   "theorems": [
    "C09_member_force_refuted",
    "C09_own_field_included"
   ],
   "note": "REFUTED: evaluating the field resynchronises the circuit, so the member own field is included."
  },
  {
   "property": "C10",
   "status": "partial",
   "theorems": [
    "C10_mirrored_refuted",
    "C10_pair_as_built"
   ],
   "note": "REFUTED: both coils are at +Z, the current and control arguments are lost."
  },
  {
   "property": "C11",
   "status": "proved",
   "theorems": [
    "C11_cached_flux"
   ],
   "note": ""
  },
  {
   "property": "C12",
   "status": "partial",
   "theorems": [
    "C12_last_label_wins",
    "C12_moved_coil_refuted",
    "C12_repeated_labels_refuted"
   ],
   "note": "REFUTED: with repeated labels the last coil provides the response of all; a moved coil keeps its old response."
  },
  {
   "property": "C13",
   "status": "proved",
   "theorems": [
    "C13_consistent_constraints_met",
    "C13_residual_after_call",
    "C13_solved_constraints_hold"
   ],
   "note": "The optimiser is any function returning as many numbers as it was given; the last theorem also assumes it does not return a worse point than its start."
  },
  {
   "property": "C14",
   "status": "proved",
   "theorems": [
    "C14_normal_equations",
    "C14_result_minimises",
    "C14_unique_minimiser"
   ],
   "note": "numpy inv is assumed to invert, SLSQP not to return a point worse than its start."
  },
  {
   "property": "C15",
   "status": "proved",
   "theorems": [
    "C15_current_limits",
    "C15_fit_starts_feasible",
    "C15_limits_per_coil"
   ],
   "note": "SLSQP is assumed to respect its bounds."
  },
  {
   "property": "C16",
   "status": "proved",
   "theorems": [
    "C16_total_current_limit"
   ],
   "note": "SLSQP is assumed to satisfy its inequality constraints."
  },
  {
   "property": "C17",
   "status": "proved",
   "theorems": [
    "C17_default_weights",
    "C17_offset_invariance",
    "C17_zero_iff_offset"
   ],
   "note": "Weights are an array (a number makes numpy.average raise TypeError)."
  },
  {
   "property": "C18",
   "status": "partial",
   "theorems": [
    "C18_default_lims_crash",
    "C18_default_weights_crash",
    "C18_defaults_usable_refuted",
    "C18_limits_by_coil_refuted",
    "C18_residual_at_target",
    "C18_zero_residual_refuted"
   ],
   "note": "REFUTED: default current_lims=None and weights=1.0 raise TypeError, the target average is not removed, limits go by position among controlled coils."
  },
  {
   "property": "C19",
   "status": "proved",
   "theorems": [
    "C19_sparse_is_elliptic"
   ],
   "note": ""
  },
  {
   "property": "C20",
   "status": "proved",
   "theorems": [
    "C20_second_order_consistency"
   ],
   "note": ""
  },
  {
   "property": "C21",
   "status": "proved",
   "theorems": [
    "C21_well_posed"
   ],
   "note": "Includes existence of a solution for every right hand side."
  },
  {
   "property": "C22",
   "status": "proved",
   "theorems": [
    "C22_fourth_order_exact"
   ],
   "note": "Grids with at least six points in each direction."
  },
  {
   "property": "C23",
   "status": "partial",
   "theorems": [
    "C23_every_accepted_grid_refuted",
    "C23_small_nx_rejected"
   ],
   "note": "REFUTED: ny=5 is accepted and couples points of different columns; 3<=nx<=5 always raises IndexError."
  },
  {
   "property": "C24",
   "status": "partial",
   "theorems": [
    "C24_full_weighting_refuted",
    "C24_restrict_is_injection"
   ],
   "note": "REFUTED: the neighbour weights are discarded (statements beginning with a unary plus), restrict is injection; with avg=True a constant array becomes a quarter of it."
  },
  {
   "property": "C25",
   "status": "proved",
   "theorems": [
    "C25_interpolate_bilinear",
    "C25_interpolate_linear",
    "C25_restrict_inverts_interpolate"
   ],
   "note": ""
  },
  {
   "property": "C26",
   "status": "proved",
   "theorems": [
    "C26_creation_total",
    "C26_hierarchy"
   ],
   "note": ""
  },
  {
   "property": "C27",
   "status": "proved",
   "theorems": [
    "C27_grad_shafranov_solvable",
    "C27_vcycle"
   ],
   "note": "The LU factorisation is an oracle assumed to solve nonsingular systems."
  },
  {
   "property": "C28",
   "status": "proved",
   "theorems": [
    "C28_fixed_boundary",
    "C28_free_boundary",
    "C28_free_boundary_linear",
    "C28_free_boundary_sign"
   ],
   "note": "Grid sizes 2^k+1 for freeBoundary (any other size raises); Greens an arbitrary function."
  },
  {
   "property": "C29",
   "status": "proved",
   "theorems": [
    "C29_constructor_solver",
    "C29_fourth_order",
    "C29_second_order",
    "C29_solve_equation"
   ],
   "note": "Direct solver; the linear solver is a parameter that solves the systems with the matrix (elimination is given as an instance)."
  },
  {
   "property": "C30",
   "status": "proved",
   "theorems": [
    "C30_accepted_sizes",
    "C30_exact_for_lines",
    "C30_linear",
    "C30_reversal",
    "C30_samples"
   ],
   "note": ""
  },
  {
   "property": "C31",
   "status": "proved",
   "theorems": [
    "C31_betap_current",
    "C31_paxis_current",
    "C31_shape_integral_positive"
   ],
   "note": "The normalisation L must not be zero (then the code divides by zero); that the shape integral does not vanish is proved for positive exponents."
  },
  {
   "property": "C32",
   "status": "proved",
   "theorems": [
    "C32_pressure_on_axis"
   ],
   "note": "quad is the Riemann integral; L, Raxis and the flux difference are not zero."
  },
  {
   "property": "C33",
   "status": "proved",
   "theorems": [
    "C33_poloidal_beta",
    "C33_region"
   ],
   "note": "quad is the Riemann integral; the integration region is the code's (interior points with normalised flux in [0,1))."
  },
  {
   "property": "C34",
   "status": "proved",
   "theorems": [
    "C34_constrained",
    "C34_core",
    "C34_functions",
    "C34_functions_outside_core",
    "C34_functions_zero_outside",
    "C34_outside_core",
    "C34_zero_outside"
   ],
   "note": ""
  },
  {
   "property": "C35",
   "status": "proved",
   "theorems": [
    "C35_arrays",
    "C35_constrained",
    "C35_fpol_boundary",
    "C35_fpol_derivative",
    "C35_pressure_derivative"
   ],
   "note": "quad is the Riemann integral, sqrt exact; fpol must be positive where its square is differentiated."
  },
  {
   "property": "C36",
   "status": "partial",
   "theorems": [
    "C36_fpol_never_negative",
    "C36_toroidal_field_direction_refuted"
   ],
   "note": "REFUTED: fpol at the boundary is |fvac|, so the sign is lost for negative fvac."
  },
  {
   "property": "C37",
   "status": "partial",
   "theorems": [
    "C37_negative_exponents_rejected",
    "C37_positive_exponents",
    "C37_zero_alpha_m_refuted",
    "C37_zero_alpha_n_refuted"
   ],
   "note": "REFUTED at the accepted exponents alpha_m = 0 and alpha_n = 0; proved for positive exponents, and negative exponents are rejected."
  },
  {
   "property": "C38",
   "status": "partial",
   "theorems": [
    "C38_constrained_ignore_psi_bndry",
    "C38_functions_honour_psi_bndry",
    "C38_psi_bndry_honoured_refuted"
   ],
   "note": "REFUTED for ConstrainPaxisIp and ConstrainBetapIp, which ignore the argument; proved for ProfilesPprimeFfprime."
  },
  {
   "property": "C39",
   "status": "proved",
   "theorems": [
    "C39_bound_irrelevant",
    "C39_core_mask_terminates"
   ],
   "note": "nx, ny >= 1. The bound is 6 nx ny + 4 steps; more steps do not change the result."
  },
  {
   "property": "C40",
   "status": "proved",
   "theorems": [
    "C40_core_mask_exact",
    "C40_nearest_unique"
   ],
   "note": "nx, ny >= 1."
  },
  {
   "property": "C41",
   "status": "partial",
   "theorems": [
    "C41_outside_blocks",
    "C41_private_flux_refuted"
   ],
   "note": "REFUTED: inside the 3x3 block around the X-point, points of the private flux region are marked. Proved outside those blocks."
  },
  {
   "property": "C42",
   "status": "proved",
   "theorems": [
    "C42_remove_dup",
    "C42_returned_points_apart"
   ],
   "note": ""
  },
  {
   "property": "C43",
   "status": "proved",
   "theorems": [
    "C43_complete",
    "C43_discard_only_removes",
    "C43_newton_bounded",
    "C43_points_genuine",
    "C43_sorted"
   ],
   "note": "The spline is any function with its derivatives; Newton steps over exact real arithmetic."
  },
  {
   "property": "C44",
   "status": "partial",
   "theorems": [
    "C44_inside_domain_refuted",
    "C44_on_ray_in_domain",
    "C44_on_surface",
    "C44_returns"
   ],
   "note": "Proved with a tolerance of 1e-6 at the edge of the domain; exactly inside is REFUTED for rays leaving the edge nearly parallel to it. First sample must not exceed the value."
  },
  {
   "property": "C45",
   "status": "partial",
   "theorems": [
    "C45_missing_surface_refuted",
    "C45_start_returned"
   ],
   "note": "REFUTED: the start of the ray is returned without a warning."
  },
  {
   "property": "C46",
   "status": "partial",
   "theorems": [
    "C46_grid_must_be_square",
    "C46_grid_shape_refuted",
    "C46_limiter_flux_is_transposed",
    "C46_limiter_flux_refuted"
   ],
   "note": "REFUTED: the flux map is transposed before it is evaluated at the limit points, and grids that are not square raise ValueError."
  },
  {
   "property": "C47",
   "status": "partial",
   "theorems": [
    "C47_boundary_closest_when_axis_is_maximum",
    "C47_boundary_furthest_when_axis_is_minimum",
    "C47_limit_point_refuted"
   ],
   "note": "REFUTED when the axis is the minimum of the flux: the surface furthest from the axis is taken. Proved when it is the maximum."
  },
  {
   "property": "C48",
   "status": "proved",
   "theorems": [
    "C48_calls",
    "C48_ends"
   ],
   "note": "For maxits other than 0 and None; negative numbers give one solve."
  },
  {
   "property": "C49",
   "status": "partial",
   "theorems": [
    "C49_no_bound",
    "C49_zero_refuted"
   ],
   "note": "REFUTED for 0, which means no limit (`if maxits and ...`); every other number is a bound (C48)."
  },
  {
   "property": "C50",
   "status": "proved",
   "theorems": [
    "C50_converged",
    "C50_never_without_boundary"
   ],
   "note": ""
  },
  {
   "property": "C51",
   "status": "partial",
   "theorems": [
    "C51_at_least_two",
    "C51_lost_boundary_refuted"
   ],
   "note": "REFUTED: bndry_change keeps its value of the last turn in which a boundary was found. Never in the first turn, and never if no boundary was found at all (C50)."
  },
  {
   "property": "C52",
   "status": "proved",
   "theorems": [
    "C52_pickUnique_distinct"
   ],
   "note": ""
  },
  {
   "property": "C53",
   "status": "partial",
   "theorems": [
    "C53_last_index_never_picked",
    "C53_pickUnique_coverage_refuted"
   ],
   "note": "REFUTED: for m+len(e)<N index N-1 is never returned (numpy randint excludes its upper bound)."
  },
  {
   "property": "C54",
   "status": "proved",
   "theorems": [
    "C54_evolution_monotone"
   ],
   "note": ""
  },
  {
   "property": "C55",
   "status": "partial",
   "theorems": [
    "C55_best_is_lowest_refuted",
    "C55_first_best_is_worst"
   ],
   "note": "REFUTED: initial best is the worst of the population; a run returning an object worse than the start is exhibited."
  },
  {
   "property": "C56",
   "status": "partial",
   "theorems": [
    "C56_any_number_of_controls_refuted",
    "C56_last_control_never_drawn",
    "C56_single_control_raises"
   ],
   "note": "REFUTED: one control always raises ValueError; with CR=0 the last control is never set."
  },
  {
   "property": "C57",
   "status": "proved",
   "theorems": [
    "C57_defaults",
    "C57_position_limits"
   ],
   "note": ""
  },
  {
   "property": "C58",
   "status": "partial",
   "theorems": [
    "C58_zero_limit_ignored",
    "C58_zero_limit_refuted"
   ],
   "note": "REFUTED: a limit equal to 0 is treated as absent."
  },
  {
   "property": "C59",
   "status": "proved",
   "theorems": [
    "C59_area_invariants"
   ],
   "note": ""
  },
  {
   "property": "C60",
   "status": "proved",
   "theorems": [
    "C60_convex_terminates",
    "C60_triangulation_conserves_area"
   ],
   "note": ""
  },
  {
   "property": "C61",
   "status": "partial",
   "theorems": [
    "C61_ear_test",
    "C61_no_ear_no_end",
    "C61_positive_triangles_refuted",
    "C61_termination_refuted"
   ],
   "note": "REFUTED: the while loop never ends on a simple hexagon; a simple quadrilateral gets a triangle of negative area."
  },
  {
   "property": "C62",
   "status": "proved",
   "theorems": [
    "C62_intersect_closed"
   ],
   "note": "Edges with |det| below 1e-6 are skipped by the code; the equivalence says so."
  },
  {
   "property": "C63",
   "status": "partial",
   "theorems": [
    "C63_open_edges_tested",
    "C63_open_polylines_refuted"
   ],
   "note": "REFUTED: the modulus n-1 replaces the last edge by a closing edge; two open segments never intersect."
  },
  {
   "property": "C64",
   "status": "proved",
   "theorems": [
    "C64_other_orders_rejected",
    "C64_triangle_quadrature"
   ],
   "note": ""
  },
  {
   "property": "C65",
   "status": "proved",
   "theorems": [
    "C65_centroid"
   ],
   "note": ""
  },
  {
   "property": "C66",
   "status": "proved",
   "theorems": [
    "C66_circuit_reached",
    "C66_round_trip",
    "C66_same_field",
    "C66_shaped_reached"
   ],
   "note": "The area of a plain Coil is not kept (see C67); Coil.__eq__ does not compare it."
  },
  {
   "property": "C67",
   "status": "partial",
   "theorems": [
    "C67_area_refuted",
    "C67_edited_circuit_refuted",
    "C67_filament_coil_refuted",
    "C67_moved_coil_goes_back",
    "C67_moved_coil_refuted",
    "C67_multi_coil_refuted",
    "C67_precalc_coil_refuted",
    "C67_unsavable"
   ],
   "note": "REFUTED: a moved ShapedCoil goes back to its old position; FilamentCoil, MultiCoil, PreCalcCoil, circuits of other coils than Coil and shapes of more than ten vertices cannot be saved; areas are lost; a circuit with a coil edited on its own comes back with another current."
  },
  {
   "property": "C68",
   "status": "proved",
   "theorems": [
    "C68_round_trip",
    "C68_write_succeeds"
   ],
   "note": "That Equilibrium(...) can be built from the file is a hypothesis (read succeeds)."
  },
  {
   "property": "C69",
   "status": "partial",
   "theorems": [
    "C69_alphabetical",
    "C69_coil_order_refuted",
    "C69_settings_refuted",
    "C69_user_boundary_refuted",
    "C69_what_is_read"
   ],
   "note": "REFUTED: alphabetical order, order 4, no limiter check, user boundary functions. Alphabetical machines keep their order (C69_alphabetical)."
  },
  {
   "property": "C70",
   "status": "proved",
   "theorems": [
    "C70_any_size",
    "C70_geometry_and_flux"
   ],
   "note": "For grids of 2^n+1 points the flux is kept exactly (relative to the axis); for other sizes it is resampled (C70_any_size). The text format of the file is freeqdsk, not modelled."
  },
  {
   "property": "C71",
   "status": "partial",
   "theorems": [
    "C71_limiter_kept",
    "C71_limiter_refuted",
    "C71_profiles_refuted",
    "C71_profiles_stretched"
   ],
   "note": "REFUTED: profiles are written at k/nx but read as values at k/(nx-1) (C71_profiles_stretched); the limit points stay those of the former wall (C71_limiter_kept)."
  },
  {
   "property": "C72",
   "status": "proved",
   "theorems": [
    "C72_ceilPow2",
    "C72_isPow2",
    "C72_not_positive",
    "C72_resized"
   ],
   "note": ""
  },
  {
   "property": "C73",
   "status": "partial",
   "theorems": [
    "C73_always_coarser",
    "C73_refuted",
    "C73_small_domain"
   ],
   "note": "REFUTED: whenever a domain is accepted the spacing is strictly larger than that of the (resized) file (C73_always_coarser), and a domain that is not both wider and higher raises UnboundLocalError (C73_small_domain)."
  },
  {
   "property": "C74",
   "status": "proved",
   "theorems": [
    "C74_coarsen_refine",
    "C74_refine_coincident",
    "C74_refine_keeps_set_up"
   ],
   "note": "The spline is a parameter; coincidence of the flux for a spline that interpolates."
  },
  {
   "property": "C75",
   "status": "partial",
   "theorems": [
    "C75_coarsen",
    "C75_coarsen_refuted",
    "C75_newDomain",
    "C75_newDomain_refuted"
   ],
   "note": "REFUTED: coarsen and newDomain always give a free-boundary equilibrium of order 4; newDomain takes the default for ny from nx; coarsen zeroes the edges. What is kept is proved."
  },
  {
   "property": "C76",
   "status": "proved",
   "theorems": [
    "C76_defining_relations",
    "C76_no_points",
    "C76_sums",
    "C76_translation"
   ],
   "note": ""
  },
  {
   "property": "C77",
   "status": "partial",
   "theorems": [
    "C77_midplane_radii",
    "C77_no_crossing_refuted"
   ],
   "note": "REFUTED for rows without a crossing: the edges of the domain are returned. Proved for rows with normalised flux at most 1 next to the axis."
  },
  {
   "property": "C78",
   "status": "partial",
   "theorems": [
    "C78_backward",
    "C78_length",
    "C78_length_refuted",
    "C78_lines_independent",
    "C78_multistep_refuted",
    "C78_runge_kutta",
    "C78_stopped_for_good"
   ],
   "note": "REFUTED in two ways: lengths are negative for a negative toroidal field, and the multistep formulas of odeint can move a line after it has left. Rates vanish for good (C78_stopped_for_good), and every Runge-Kutta integrator keeps the position (C78_runge_kutta)."
  },
  {
   "property": "C79",
   "status": "proved",
   "theorems": [
    "C79_enclosed_current",
    "C79_linear",
    "C79_shaped",
    "C79_switched_off"
   ],
   "note": "Point-in-polygon and polygon overlap (shapely) are arbitrary functions."
  },
  {
   "property": "C80",
   "status": "partial",
   "theorems": [
    "C80_solenoid_refuted",
    "C80_turns_ignored",
    "C80_turns_refuted"
   ],
   "note": "REFUTED: turns are ignored; a machine with a solenoid raises AttributeError."
  },
  {
   "property": "C81",
   "status": "proved",
   "theorems": [
    "C81_on_wall"
   ],
   "note": "The first two wall points must differ (otherwise the code divides 0 by 0)."
  },
  {
   "property": "C82",
   "status": "partial",
   "theorems": [
    "C82_closing_side_refuted",
    "C82_new_wall_refuted"
   ],
   "note": "REFUTED: the closing side is never sampled; assigning a wall keeps the old limit points."
  },
  {
   "property": "C83",
   "status": "proved",
   "theorems": [
    "C83_second_order_truncation"
   ],
   "note": ""
  },
  {
   "property": "C84",
   "status": "proved",
   "theorems": [
    "C84_direct_solve_converges"
   ],
   "note": ""
  },
  {
   "property": "C85",
   "status": "proved",
   "theorems": [
    "C85_coarse_problem",
    "C85_jacobi_solves_each_equation",
    "C85_matrix_free_boundary",
    "C85_unhalvable_grid_raises"
   ],
   "note": ""
  },
  {
   "property": "C86",
   "status": "proved",
   "theorems": [
    "C86_laplace_matrix"
   ],
   "note": ""
  },
  {
   "property": "C87",
   "status": "proved",
   "theorems": [
    "C87_jacobi_converges"
   ],
   "note": ""
  },
  {
   "property": "C88",
   "status": "proved",
   "theorems": [
    "C88_point_sensors"
   ],
   "note": ""
  },
  {
   "property": "C89",
   "status": "proved",
   "theorems": [
    "C89_degree_is_sharp",
    "C89_exact_for_polynomials"
   ],
   "note": "The degree bound is also shown to be sharp."
  },
  {
   "property": "C90",
   "status": "proved",
   "theorems": [
    "C90_grid_positive",
    "C90_monotone",
    "C90_positive"
   ],
   "note": ""
  },
  {
   "property": "C91",
   "status": "proved",
   "theorems": [
    "C91_classification_exact",
    "C91_newton_step",
    "C91_newton_stop"
   ],
   "note": ""
  },
  {
   "property": "C92",
   "status": "proved",
   "theorems": [
    "C92_kept_visible",
    "C92_monotone_kept"
   ],
   "note": ""
  },
  {
   "property": "C93",
   "status": "partial",
   "theorems": [
    "C93_rays_avoid_xpoint_refuted",
    "C93_shift_or_clear"
   ],
   "note": "REFUTED: an X-point just below 2 pi is not noticed to be close to the ray at angle 0. Proved for the angle reduced to [0, 2 pi) when the step is larger than 0.004."
  },
  {
   "property": "C94",
   "status": "proved",
   "theorems": [
    "C94_needs_xpoint",
    "C94_separatrix_points"
   ],
   "note": ""
  },
  {
   "property": "C95",
   "status": "partial",
   "theorems": [
    "C95_hagenow_values",
    "C95_interior_kept_refuted",
    "C95_interior_kept_with_direct_solver"
   ],
   "note": "REFUTED for the iterative solver, which works in the array it is given; proved for the direct solver. Edge values proved for every solver."
  },
  {
   "property": "C96",
   "status": "proved",
   "theorems": [
    "C96_exact_for_quartics",
    "C96_normal_derivative_order"
   ],
   "note": ""
  },
  {
   "property": "C97",
   "status": "partial",
   "theorems": [
    "C97_constrained_profiles_are_tied_to_their_grid",
    "C97_profiles_on_refined_grid_refuted",
    "C97_refined_profiles"
   ],
   "note": "REFUTED: the constrained profiles keep the equilibrium they were made with and raise ValueError on every grid of another size."
  },
  {
   "property": "C98",
   "status": "proved",
   "theorems": [
    "C98_bounds",
    "C98_mirror",
    "C98_order",
    "C98_scaling"
   ],
   "note": ""
  },
  {
   "property": "C99",
   "status": "partial",
   "theorems": [
    "C99_separatrix_needs_xpoint",
    "C99_shape_of_limited_plasma_refuted"
   ],
   "note": "REFUTED: find_separatrix uses xpoint[0], IndexError for every plasma without an X-point."
  },
  {
   "property": "C100",
   "status": "proved",
   "theorems": [
    "C100_energy",
    "C100_mean_pressure",
    "C100_not_available",
    "C100_volume_monotone",
    "C100_volume_of_domain",
    "C100_volume_of_mask"
   ],
   "note": ""
  },
  {
   "property": "C101",
   "status": "partial",
   "theorems": [
    "C101_betap3_refuted",
    "C101_betap3_value",
    "C101_energy_beta",
    "C101_li1_li3",
    "C101_li2_li3",
    "C101_li_is_li3",
    "C101_total_beta"
   ],
   "note": "REFUTED for poloidalBeta3, which has the plasma volume as an additional factor (the integral of the pressure is multiplied by the volume instead of the mean pressure); its exact value and all the other relations are proved."
  },
  {
   "property": "C102",
   "status": "proved",
   "theorems": [
    "C102_constrained_beta"
   ],
   "note": "The state of the equilibrium (flux, axis, boundary flux, mask) is taken to be the one the profile was evaluated with."
  },
  {
   "property": "C103",
   "status": "proved",
   "theorems": [
    "C103_advanced",
    "C103_default_weights",
    "C103_gauge_invariance",
    "C103_values",
    "C103_zero_iff_on_target"
   ],
   "note": ""
  },
  {
   "property": "C104",
   "status": "proved",
   "theorems": [
    "C104_circle",
    "C104_circle_error",
    "C104_direction",
    "C104_length",
    "C104_linear",
    "C104_sign",
    "C104_start"
   ],
   "note": ""
  },
  {
   "property": "C105",
   "status": "partial",
   "theorems": [
    "C105_inside",
    "C105_list_always_raises",
    "C105_list_refuted",
    "C105_pointwise"
   ],
   "note": "REFUTED for Python lists, which always raise TypeError (the documented example); proved for numbers and arrays, and surfaces are independent."
  },
  {
   "property": "C106",
   "status": "partial",
   "theorems": [
    "C106_ignores_the_boundary",
    "C106_limited_plasma_refuted",
    "C106_no_xpoint"
   ],
   "note": "REFUTED: the flux is normalised to the first X-point, whatever the plasma boundary is; without an X-point ValueError."
  },
  {
   "property": "C107",
   "status": "partial",
   "theorems": [
    "C107_from_the_axis_refuted",
    "C107_normalisation_refuted",
    "C107_reversed_current",
    "C107_rhotor",
    "C107_single_value_refuted",
    "C107_single_values_raise",
    "C107_trapezoid"
   ],
   "note": "REFUTED: the integral starts at the first requested value instead of the axis, single values raise, and rhotor divides by zero when the flux rises from the axis. Trapezoid rule and the properties of rhotor for falling flux are proved."
  },
  {
   "property": "C108",
   "status": "proved",
   "theorems": [
    "C108_first_turn",
    "C108_fixed_point"
   ],
   "note": ""
  },
  {
   "property": "C109",
   "status": "proved",
   "theorems": [
    "C109_wait_without_check"
   ],
   "note": "The profile and the constraint function are assumed not to set is_limited themselves."
  },
  {
   "property": "C110",
   "status": "partial",
   "theorems": [
    "C110_repeated_label",
    "C110_slash_in_label",
    "C110_slash_name",
    "C110_slash_refuted"
   ],
   "note": "REFUTED: a label with a slash makes a file that cannot be read. Repeated labels are refused (C110_repeated_label)."
  },
  {
   "property": "C111",
   "status": "partial",
   "theorems": [
    "C111_readable",
    "C111_refuted"
   ],
   "note": "REFUTED: non-square grids cannot be read with a wall; a readable file needs a square grid, limit points of the former wall and an X-point (C111_readable)."
  },
  {
   "property": "C112",
   "status": "partial",
   "theorems": [
    "C112_boundary_start",
    "C112_refuted"
   ],
   "note": "REFUTED: the list is reversed before it is rolled by the index in the unreversed list; the true starting point is given by C112_boundary_start."
  },
  {
   "property": "C113",
   "status": "proved",
   "theorems": [
    "C113_bounds_and_corners",
    "C113_interpolates"
   ],
   "note": ""
  },
  {
   "property": "C114",
   "status": "proved",
   "theorems": [
    "C114_safety_factor"
   ],
   "note": ""
  },
  {
   "property": "C115",
   "status": "partial",
   "theorems": [
    "C115_inside",
    "C115_refuted"
   ],
   "note": "REFUTED: a rejected trial point outside the domain stops the line (the array evolving is shared by all evaluations). True while no evaluation is outside (C115_inside)."
  },
  {
   "property": "C116",
   "status": "partial",
   "theorems": [
    "C116_convex_wall",
    "C116_corner_refuted",
    "C116_domain",
    "C116_middle_refuted",
    "C116_parity",
    "C116_short_refuted"
   ],
   "note": "REFUTED for lines through wall vertices, short wall segments, and domains whose middle is outside the wall. Proved for convex walls in all other directions (C116_convex_wall)."
  },
  {
   "property": "C117",
   "status": "proved",
   "theorems": [
    "C117_flux_constant",
    "C117_follows_field"
   ],
   "note": ""
  },
  {
   "property": "C118",
   "status": "partial",
   "theorems": [
    "C118_refuted",
    "C118_shapes",
    "C118_start"
   ],
   "note": "REFUTED: scalars and arrays with several axes fail; C118_shapes says exactly which shapes work."
  },
  {
   "property": "C119",
   "status": "proved",
   "theorems": [
    "C119_starts"
   ],
   "note": ""
  },
  {
   "property": "C120",
   "status": "proved",
   "theorems": [
    "C120_field_moves",
    "C120_move_R",
    "C120_move_Z",
    "C120_move_back"
   ],
   "note": ""
  },
  {
   "property": "C121",
   "status": "partial",
   "theorems": [
    "C121_outline_refuted",
    "C121_outline_stays",
    "C121_precalc_field_stays",
    "C121_precalc_refuted",
    "C121_shaped_sensor_stale"
   ],
   "note": "REFUTED: the field of a PreCalcCoil stays where it was (C121_precalc_field_stays) and the outline used by sensors and saving never moves (C121_outline_stays)."
  },
  {
   "property": "C122",
   "status": "partial",
   "theorems": [
    "C122_box",
    "C122_density",
    "C122_outline_area",
    "C122_positive_refuted",
    "C122_setter"
   ],
   "note": "The areas are as stated, but an unpowered coil with the default current density limit has zero area (C122_positive_refuted), so its self force divides by a zero minor radius."
  },
  {
   "property": "C123",
   "status": "proved",
   "theorems": [
    "C123_circuit_control",
    "C123_circuit_getitem",
    "C123_getCurrents",
    "C123_getitem",
    "C123_switch"
   ],
   "note": ""
  },
  {
   "property": "C124",
   "status": "proved",
   "theorems": [
    "C124_divergence_free",
    "C124_field_from_flux"
   ],
   "note": ""
  },
  {
   "property": "C125",
   "status": "partial",
   "theorems": [
    "C125_forces_ignore_stored",
    "C125_forces_refuted",
    "C125_members_follow",
    "C125_stale_force"
   ],
   "note": "REFUTED: when the first entry of the machine is a circuit, the force on its member is that on the current stored in it before the call (C125_stale_force, C125_forces_refuted). True when the first entry is a plain coil (C125_forces_ignore_stored, C125_members_follow)."
  },
  {
   "property": "C126",
   "status": "partial",
   "theorems": [
    "C126_default_refuted",
    "C126_independent",
    "C126_machine",
    "C126_off_sensor_fails",
    "C126_print_refuted",
    "C126_printed"
   ],
   "note": "REFUTED: printing fails for a sensor created switched off and for a machine without sensors. Values are independent (C126_independent) and printed in order (C126_printed) otherwise."
  },
  {
   "property": "C127",
   "status": "proved",
   "theorems": [
    "C127_cells",
    "C127_total_current"
   ],
   "note": ""
  },
  {
   "property": "C128",
   "status": "proved",
   "theorems": [
    "C128_too_few",
    "C128_within_limits"
   ],
   "note": ""
  },
  {
   "property": "C129",
   "status": "partial",
   "theorems": [
    "C129_compare",
    "C129_compare_refuted",
    "C129_labels_refuted",
    "C129_point_shaped",
    "C129_symmetric_refuted"
   ],
   "note": "REFUTED: different coils under one label raise TypeError even against itself; a coil against a circuit and a wall against none raise AttributeError; walls with different numbers of points raise ValueError; == is not symmetric. C129_compare says when comparison works."
  },
  {
   "property": "C130",
   "status": "partial",
   "theorems": [
    "C130_area_ignored",
    "C130_multi_equal",
    "C130_same_field",
    "C130_same_field_refuted"
   ],
   "note": "REFUTED: MultiCoils (and filament coils) are compared by centre only, and areas are not compared. True for the field of machines of loops, circuits of loops and solenoids (C130_same_field)."
  },
  {
   "property": "C131",
   "status": "proved",
   "theorems": [
    "C131_labels",
    "C131_one_point",
    "C131_order",
    "C131_shaped",
    "C131_walls"
   ],
   "note": ""
  },
  {
   "property": "C132",
   "status": "partial",
   "theorems": [
    "C132_control",
    "C132_flux_follows",
    "C132_flux_follows_refuted",
    "C132_height_control",
    "C132_no_position",
    "C132_scored",
    "C132_stale"
   ],
   "note": "REFUTED for eq.psi() after moving a coil by hand: the stored Green functions stay (C132_stale). True for the optimiser, which renews them (C132_flux_follows), and for the controls (C132_control)."
  },
  {
   "property": "C133",
   "status": "partial",
   "theorems": [
    "C133_current",
    "C133_force",
    "C133_force_fails",
    "C133_force_refuted",
    "C133_plasma_refuted"
   ],
   "note": "REFUTED: max_coil_force raises KeyError as soon as there is a circuit or solenoid, and leaves out the plasma. True for machines of coils without plasma (C133_force) and for currents with distinct labels (C133_current)."
  },
  {
   "property": "C134",
   "status": "partial",
   "theorems": [
    "C134_move_R",
    "C134_move_Z",
    "C134_moves_alone_refuted",
    "C134_new",
    "C134_other_sequences_refuted",
    "C134_shared_list"
   ],
   "note": "REFUTED: the constructor keeps the lists it is given and the setters change them in place, so coils made from one list move together; tuples raise TypeError and integer arrays lose the fraction. True for own lists of floats (C134_move_R, C134_move_Z)."
  },
  {
   "property": "C135",
   "status": "partial",
   "theorems": [
    "C135_coil",
    "C135_coil_refuted",
    "C135_inside",
    "C135_none",
    "C135_number",
    "C135_some_refuted",
    "C135_terminates"
   ],
   "note": "REFUTED: the constructor raises ValueError as soon as a filament is in a staggered row (C135_coil), and a rectangle can be left with no filament at all. True: the search ends (C135_terminates), filaments are inside (C135_inside), and their number when the count at the end of the search is at most 1.1 N (C135_number)."
  },
  {
   "property": "C136",
   "status": "partial",
   "theorems": [
    "C136_loaded_equal",
    "C136_moved_unnoticed",
    "C136_same_place_refuted"
   ],
   "note": "REFUTED for the second half: a ShapedCoil that has been moved is saved with its old outline, is read back at the old place, and == compares the outlines only, so the machines are equal with coils in different places (C136_moved_unnoticed). The loaded machine compares equal both ways (C136_loaded_equal)."
  },
  {
   "property": "C137",
   "status": "proved",
   "theorems": [
    "C137_cached_flux",
    "C137_controls",
    "C137_labels",
    "C137_no_currents",
    "C137_shaped"
   ],
   "note": "Labels, cached flux, currents and controls for all machines over the reals; success of the triangulations of the shaped coils and positive radii by exact rational computation (C137_shaped)."
  },
  {
   "property": "C138",
   "status": "partial",
   "theorems": [
    "C138_MAST",
    "C138_MASTU",
    "C138_MASTU_Pc_refuted",
    "C138_MASTU_simple",
    "C138_MAST_sym",
    "C138_TCV",
    "C138_TestTokamak_refuted",
    "C138_sensors"
   ],
   "note": "REFUTED for the Pc coil of MASTU, whose strands reach from z=-0.78 to 0.77, and for the shaped P1 coils of TestTokamak, which are cut along different diagonals. True for MAST, MAST_sym, TCV, MASTU_simple and for MASTU without Pc, for all currents; paired sensors C138_sensors."
  },
  {
   "property": "C139",
   "status": "partial",
   "theorems": [
    "C139_MASTU",
    "C139_MASTU_simple",
    "C139_turns_refuted"
   ],
   "note": "REFUTED: the filament coils of MASTU have one turn each (2 amp-turns per circuit), those of MASTU_simple up to 44; C139_MASTU and C139_MASTU_simple give the turns of all coils."
  },
  {
   "property": "C140",
   "status": "partial",
   "theorems": [
    "C140_backtracking_refuted",
    "C140_crossing_refuted",
    "C140_gap",
    "C140_gap_refuted",
    "C140_mirror"
   ],
   "note": "REFUTED: two sides of the MAST-U wall cross, others run back along each other, and the closing side of 2 m at R=1.6 has no limit points (C140_gap). The wall is mirror symmetric (C140_mirror)."
  },
  {
   "property": "C141",
   "status": "partial",
   "theorems": [
    "C141_MASTU",
    "C141_MASTU_refuted",
    "C141_order_refuted",
    "C141_savable"
   ],
   "note": "REFUTED: MASTU cannot be saved with any currents (C141_MASTU), and the coils of MAST come back in another order. True that the other machines apart from TCV can be saved (C141_savable)."
  },
  {
   "property": "C142",
   "status": "proved",
   "theorems": [
    "C142_effective_elongation",
    "C142_shift"
   ],
   "note": "Effective elongation is characterised by the volume, the shift by the two axes; exact arithmetic."
  },
  {
   "property": "C143",
   "status": "proved",
   "theorems": [
    "C143_betaN",
    "C143_betap2",
    "C143_betas",
    "C143_between",
    "C143_core",
    "C143_qcyl",
    "C143_total",
    "C143_vacuum"
   ],
   "note": "Over the reals, for every spline of the mask; the Romberg rule is that of C30. Values where the mask spline is strictly between 0 and 1 only bounded (C143_between)."
  },
  {
   "property": "C144",
   "status": "proved",
   "theorems": [
    "C144_default_grid",
    "C144_inner_nodes",
    "C144_surfaces"
   ],
   "note": "C144_surfaces is structural and holds for every number type; that the points lie on the surface is C44/C45, the integral is C104."
  },
  {
   "property": "C145",
   "status": "proved",
   "theorems": [
    "C145_lbfgsb",
    "C145_leastsq"
   ],
   "note": "The optimiser is any terminating strategy that asks for residuals at currents of its choosing; C145_lbfgsb assumes that it obeys bounds that can be obeyed."
  },
  {
   "property": "C146",
   "status": "partial",
   "theorems": [
    "C146_flux",
    "C146_normalised",
    "C146_normalised_refuted"
   ],
   "note": "REFUTED for the normalised flux: with trial currents without an O-point it is normalised to the axis and boundary of an earlier trial (C146_normalised_refuted). True for fits of the flux itself (C146_flux) and for trials with an O-point (C146_normalised)."
  },
  {
   "property": "C147",
   "status": "partial",
   "theorems": [
    "C147_attributes_refuted",
    "C147_flux_fit",
    "C147_flux_fit_refuted",
    "C147_last_trial"
   ],
   "note": "REFUTED: a fit of the flux leaves the attributes of the currents before (C147_flux_fit, C147_flux_fit_refuted), the other fits those of the last trial (C147_last_trial, C147_attributes_refuted)."
  },
  {
   "property": "C148",
   "status": "proved",
   "theorems": [
    "C148_control",
    "C148_converged",
    "C148_machine"
   ],
   "note": "Model of read after the grid and profiles are set up (C70-C73, C111-C114). Optimisers are any terminating strategies; L-BFGS-B is assumed to obey bounds that can be obeyed. C148_control holds for every number type."
  },
  {
   "property": "C149",
   "status": "partial",
   "theorems": [
    "C149_fit_sol_bounds",
    "C149_fit_sol_refuted",
    "C149_maxits_ignored",
    "C149_maxits_refuted",
    "C149_no_mask",
    "C149_plot",
    "C149_plot_refuted"
   ],
   "note": "REFUTED: fit_sol with current_bounds never succeeds (C149_fit_sol_bounds, C149_fit_sol_refuted), maxits is ignored with current_bounds (C149_maxits_ignored, C149_maxits_refuted), without a mask reading never succeeds (C149_no_mask), and plotConstraints fails on the stored X-points (C149_plot, C149_plot_refuted)."
  },
  {
   "property": "C150",
   "status": "proved",
   "theorems": [
    "C150_defined",
    "C150_divgeo"
   ],
   "note": "Decimal digits and line layout are not modelled. The header calls psib the flux at the plasma boundary: it is the flux between axis and boundary, consistent with the written flux up to the same constant."
  },
  {
   "property": "C151",
   "status": "proved",
   "theorems": [
    "C151_inside",
    "C151_no_wall",
    "C151_tested"
   ],
   "note": ""
  },
  {
   "property": "C152",
   "status": "partial",
   "theorems": [
    "C152_outside_refuted",
    "C152_short_edges"
   ],
   "note": "REFUTED: a plasma boundary entirely outside the wall, around it, costs 0 (C152_outside_refuted); with short edges of wall and boundary no crossing is ever found (C152_short_edges)."
  },
  {
   "property": "C153",
   "status": "proved",
   "theorems": [
    "C153_biot_savart",
    "C153_free_boundary",
    "C153_machine"
   ],
   "note": "ellipK and ellipE are the defining integrals; scipy computes them in floating point, which is not modelled. Where k^2 is clipped to [1e-10, 1-1e-10] (on the loop, or very far away) the formula is not the Biot-Savart flux and nothing is claimed here."
  },
  {
   "property": "C154",
   "status": "proved",
   "theorems": [
    "C154_machine",
    "C154_vacuum"
   ],
   "note": "Away from the filaments; where k^2 is not clipped."
  },
  {
   "property": "C155",
   "status": "proved",
   "theorems": [
    "C155_free_boundary",
    "C155_height",
    "C155_positive"
   ],
   "note": ""
  },
  {
   "property": "C156",
   "status": "proved",
   "theorems": [
    "C156_attraction",
    "C156_radial_field"
   ],
   "note": "Without plasma; the radial self force is C12."
  },
  {
   "property": "C157",
   "status": "proved",
   "theorems": [
    "C157_field"
   ],
   "note": "The code uses eps=1e-3; the limit does not bound the error at that step."
  },
  {
   "property": "C158",
   "status": "proved",
   "theorems": [
    "C158_points",
    "C158_returns"
   ],
   "note": "The angles are those of theta_grid (C104-C107)."
  },
  {
   "property": "C159",
   "status": "partial",
   "theorems": [
    "C159_rays_refuted",
    "C159_square"
   ],
   "note": "REFUTED: the rays go to Raxis + ptp(R) sin theta, Zaxis + ptp(Z) cos theta, which is at angle theta only for a square domain (C159_square); on a domain of width 1 and height sqrt 3 a ray passes exactly through the X-point although the grid was shifted away from its angle."
  },
  {
   "property": "C160",
   "status": "proved",
   "theorems": [
    "C160_advanced",
    "C160_flux",
    "C160_normalised"
   ],
   "note": "Weights as an array; scalar weights are the case of a constant array in C145-C147."
  },
  {
   "property": "C161",
   "status": "proved",
   "theorems": [
    "C161_axis",
    "C161_bounds"
   ],
   "note": "Where k^2 is not clipped."
  },
  {
   "property": "C162",
   "status": "proved",
   "theorems": [
    "C162_defined"
   ],
   "note": "nan is modelled as None, also for a division by zero; rounding and overflow are not modelled."
  },
  {
   "property": "C163",
   "status": "partial",
   "theorems": [
    "C163_near_axis_nan",
    "C163_on_axis_nan",
    "C163_vertical_field_refuted"
   ],
   "note": "REFUTED: for 0 < R < eps = 1e-3 GreensBz evaluates Greens at the negative radius R - eps, where sqrt(R*Rc) is nan, for every coil and height (C163_near_axis_nan); on the axis both fields are nan (C163_on_axis_nan). The clip of k^2 (\"to avoid nans\") does not cover this."
  },
  {
   "property": "C164",
   "status": "proved",
   "theorems": [
    "C164_advanced",
    "C164_exact",
    "C164_same_order"
   ],
   "note": ""
  },
  {
   "property": "C165",
   "status": "partial",
   "theorems": [
    "C165_exact_refuted"
   ],
   "note": "REFUTED: psi_difference takes the mean of the flux away but not that of the target, and with weights 1 and 2 other currents have a smaller sum of squares than those that give exactly the target (for which ConstrainPsi2D has residual zero). True for weights with w^2 = k w (C164)."
  },
  {
   "property": "C166",
   "status": "proved",
   "theorems": [
    "C166_positive"
   ],
   "note": ""
  },
  {
   "property": "C167",
   "status": "proved",
   "theorems": [
    "C167_linear"
   ],
   "note": ""
  },
  {
   "property": "C168",
   "status": "proved",
   "theorems": [
    "C168_mirror"
   ],
   "note": ""
  },
  {
   "property": "C169",
   "status": "proved",
   "theorems": [
    "C169_lipschitz",
    "C169_near_polynomial"
   ],
   "note": ""
  },
  {
   "property": "C170",
   "status": "proved",
   "theorems": [
    "C170_area"
   ],
   "note": ""
  },
  {
   "property": "C171",
   "status": "proved",
   "theorems": [
    "C171_stability"
   ],
   "note": ""
  },
  {
   "property": "C172",
   "status": "proved",
   "theorems": [
    "C172_error"
   ],
   "note": ""
  },
  {
   "property": "C173",
   "status": "proved",
   "theorems": [
    "C173_centred_rows",
    "C173_fourth_order_truncation"
   ],
   "note": ""
  },
  {
   "property": "C174",
   "status": "proved",
   "theorems": [
    "C174_attributes",
    "C174_normalised_flux"
   ],
   "note": ""
  },
  {
   "property": "C175",
   "status": "partial",
   "theorems": [
    "C175_no_axis_keeps",
    "C175_no_axis_refuted"
   ],
   "note": "REFUTED: C175_no_axis_refuted gives a solve after which psi_axis and psi_bndry are those of the previous flux, which has an O-point while the new one has none. C175_no_axis_keeps proves this is what always happens when the new flux has no O-point."
  },
  {
   "property": "C176",
   "status": "partial",
   "theorems": [
    "C176_order_refuted",
    "C176_second_order"
   ],
   "note": "REFUTED: C176_order_refuted gives an equilibrium of order 4 whose flux after setSolverVcycle and solve does not satisfy the fourth-order equation. C176_second_order proves that the solver is always the second-order matrix and nothing else changes."
  },
  {
   "property": "C177",
   "status": "proved",
   "theorems": [
    "C177_accuracy",
    "C177_converges",
    "C177_eventually"
   ],
   "note": ""
  },
  {
   "property": "C178",
   "status": "proved",
   "theorems": [
    "C178_contracts",
    "C178_converges"
   ],
   "note": "The boundary flux is assumed to depend on the flux with some constant L (0 when the fixed boundary flux is used)."
  },
  {
   "property": "C179",
   "status": "partial",
   "theorems": [
    "C179_bndry_ignored",
    "C179_bndry_refuted",
    "C179_given"
   ],
   "note": "REFUTED with check_limited: C179_bndry_refuted. C179_given proves it without limiter check, C179_bndry_ignored that with the check and limit_it <= 0 the argument has no effect at all."
  },
  {
   "property": "C180",
   "status": "proved",
   "theorems": [
    "C180_boundary",
    "C180_core",
    "C180_critical_points",
    "C180_current"
   ],
   "note": ""
  },
  {
   "property": "C181",
   "status": "proved",
   "theorems": [
    "C181_critical_points",
    "C181_profiles",
    "C181_solve"
   ],
   "note": "User-supplied solvers, boundary functions and profiles are assumed to be odd themselves."
  },
  {
   "property": "C182",
   "status": "proved",
   "theorems": [
    "C182_picard"
   ],
   "note": "The separation condition is required along the iteration (generic); without control system or with one that is odd."
  },
  {
   "property": "C183",
   "status": "partial",
   "theorems": [
    "C183_limiter_refuted"
   ],
   "note": "REFUTED: C183_limiter_refuted. C181_solve and C182_picard prove the reversal without limiter check."
  },
  {
   "property": "C184",
   "status": "partial",
   "theorems": [
    "C184_scale_refuted"
   ],
   "note": "REFUTED: C184_scale_refuted. C180_core proves that the core mask does not depend on the unit; C180_critical_points that the critical points do not depend on the zero of the flux."
  },
  {
   "property": "C185",
   "status": "proved",
   "theorems": [
    "C185_current",
    "C185_equation",
    "C185_pressure"
   ],
   "note": "Exact real arithmetic; the flux q is the one the last solve was called with."
  },
  {
   "property": "C186",
   "status": "proved",
   "theorems": [
    "C186_exists_unique",
    "C186_same_result"
   ],
   "note": "Exact real arithmetic."
  },
  {
   "property": "C187",
   "status": "proved",
   "theorems": [
    "C187_contracts",
    "C187_converges",
    "C187_stability"
   ],
   "note": "Exact real arithmetic; the profile hypothesis is on the whole grid, since the current density at the edge enters the boundary integral. Success of the solve and the Lipschitz constant of the boundary flux are hypotheses."
  },
  {
   "property": "C188",
   "status": "proved",
   "theorems": [
    "C188_consistent",
    "C188_fixed",
    "C188_near"
   ],
   "note": "Exact real arithmetic; success of the solve and the Lipschitz constant of the boundary flux are hypotheses, as in C178."
  },
  {
   "property": "C189",
   "status": "proved",
   "theorems": [
    "C189_consistent",
    "C189_free"
   ],
   "note": "Exact real arithmetic; hypotheses as in C187. First order in the grid spacing because the Romberg error bound C170 only assumes a Lipschitz integrand."
  },
  {
   "property": "C190",
   "status": "proved",
   "theorems": [
    "C190_infinite",
    "C190_numbers",
    "C190_raises",
    "C190_weighted_sum"
   ],
   "note": "Infinite and nan values are modelled as extra values beside the exact numbers."
  },
  {
   "property": "C191",
   "status": "partial",
   "theorems": [
    "C191_nan_returned_refuted",
    "C191_nan_start",
    "C191_zero_weight_refuted"
   ],
   "note": "REFUTED: a weight of 0 times the inf of no_wall_intersection is nan (C191_zero_weight_refuted); every optimisation that starts from a nan score returns its start (C191_nan_start), also when every other candidate scores better (C191_nan_returned_refuted)."
  },
  {
   "property": "C192",
   "status": "proved",
   "theorems": [
    "C192_before_jtor",
    "C192_elementwise",
    "C192_given",
    "C192_integrated"
   ],
   "note": "quad is exact integration (RInt) where slopes are concerned and arbitrary otherwise."
  },
  {
   "property": "C193",
   "status": "partial",
   "theorems": [
    "C193_list_refuted",
    "C193_out_refuted",
    "C193_unchecked_refuted"
   ],
   "note": "REFUTED: lists (C193_list_refuted), the output array (C193_out_refuted) and the missing comparison of a given pressure with pprime (C193_unchecked_refuted)."
  },
  {
   "property": "C194",
   "status": "proved",
   "theorems": [
    "C194_cycles",
    "C194_keeps"
   ],
   "note": "Grids that cannot be halved raise ValueError (C194_odd_grid_example)."
  },
  {
   "property": "C195",
   "status": "proved",
   "theorems": [
    "C195_called",
    "C195_inexact",
    "C195_last"
   ],
   "note": "Exact real arithmetic."
  },
  {
   "property": "C196",
   "status": "proved",
   "theorems": [
    "C196_invariant",
    "C196_machine",
    "C196_mirror"
   ],
   "note": "exact linear solver (exact_solver); the profile hypothesis is met by the profiles of jtor.py under the conditions of C197; the coil flux by C196_machine"
  },
  {
   "property": "C197",
   "status": "proved",
   "theorems": [
    "C197_call",
    "C197_core",
    "C197_profiles"
   ],
   "note": ""
  },
  {
   "property": "C198",
   "status": "proved",
   "theorems": [
    "C198_MAST_sym",
    "C198_symmetric_control"
   ],
   "note": "inverse and optimiser are parameters, as in C13 and C14"
  },
  {
   "property": "C199",
   "status": "proved",
   "theorems": [
    "C199_frame",
    "C199_missed"
   ],
   "note": "inverse and optimiser are parameters, as in C13 and C14"
  },
  {
   "property": "C200",
   "status": "proved",
   "theorems": [
    "C200_last_control",
    "C200_xpoints"
   ],
   "note": "inverse, optimiser, spline and linear solver are parameters"
  },
  {
   "property": "C201",
   "status": "proved",
   "theorems": [
    "C201_symmetric_run"
   ],
   "note": "second order solver; inverse, optimiser, spline and linear solver are parameters"
  },
  {
   "property": "C202",
   "status": "proved",
   "theorems": [
    "C202_always",
    "C202_never_worse",
    "C202_repeated"
   ],
   "note": "inverse and optimiser are parameters, as in C13 and C14"
  },
  {
   "property": "C203",
   "status": "proved",
   "theorems": [
    "C203_order"
   ],
   "note": "inverse and optimiser are parameters"
  },
  {
   "property": "C204",
   "status": "proved",
   "theorems": [
    "C204_gamma"
   ],
   "note": "inverse and optimiser are parameters"
  },
  {
   "property": "C205",
   "status": "proved",
   "theorems": [
    "C205_scale"
   ],
   "note": "inverse and optimiser are parameters"
  },
  {
   "property": "C206",
   "status": "proved",
   "theorems": [
    "C206_reversed_control"
   ],
   "note": "extends C182 to runs with constrain; inverse, optimiser, spline and linear solver are parameters"
  },
  {
   "property": "C207",
   "status": "proved",
   "theorems": [
    "C207_limits",
    "C207_total",
    "C207_uncontrolled"
   ],
   "note": "extends C15 and C16 from one call to the run; the optimiser is a parameter"
  },
  {
   "property": "C208",
   "status": "proved",
   "theorems": [
    "C208_betap",
    "C208_paxis"
   ],
   "note": "scipy.integrate.quad is taken to return the integral"
  },
  {
   "property": "C209",
   "status": "proved",
   "theorems": [
    "C209_length",
    "C209_stored",
    "C209_table"
   ],
   "note": "the conversion of numbers to text is a parameter"
  },
  {
   "property": "C210",
   "status": "partial",
   "theorems": [
    "C210_every_coil_refuted",
    "C210_solenoid_refuted"
   ],
   "note": "REFUTED: coils with the same label share one line, with the force of the last of them, and a Solenoid is printed as a circuit without members"
  },
  {
   "property": "C211",
   "status": "proved",
   "theorems": [
    "C211_coils",
    "C211_fourth",
    "C211_green",
    "C211_solve"
   ],
   "note": "the maps of a PreCalcCoil are scaled with the device; C211_fourth is the fourth-order solver, with the same hypotheses as C218"
  },
  {
   "property": "C212",
   "status": "partial",
   "theorems": [
    "C212_differences",
    "C212_hagenow_refuted",
    "C212_opoints_refuted"
   ],
   "note": "REFUTED: find_critical takes O-points less than about 3 mm apart for one, and freeBoundaryHagenow moves the observer by 1 cm, whatever the size of the device; C212_differences gives the exact effect of the 1 mm step in GreensBr and GreensBz"
  },
  {
   "property": "C213",
   "status": "proved",
   "theorems": [
    "C213_betap",
    "C213_homogeneous",
    "C213_paxis"
   ],
   "note": ""
  },
  {
   "property": "C214",
   "status": "partial",
   "theorems": [
    "C214_coefficient_refuted"
   ],
   "note": "REFUTED: for a given flux and pressure there is a current for which L = 0; Beta0 = LBeta0 / L is then a division by zero and the current density is nan, though the current density asked for exists"
  },
  {
   "property": "C215",
   "status": "proved",
   "theorems": [
    "C215_betap3",
    "C215_betas",
    "C215_energy",
    "C215_inductance"
   ],
   "note": "the field of the larger equilibrium is assumed similar at all points (C211 proves it for coils and plasma); internalInductance1 and qcyl need a separatrix of nonzero width, internalInductance2 a magnetic axis that is similar"
  },
  {
   "property": "C216",
   "status": "proved",
   "theorems": [
    "C216_mirror",
    "C216_peak",
    "C216_run",
    "C216_shape",
    "C216_value"
   ],
   "note": "the run is with the direct second order solver, fixed or free boundary"
  },
  {
   "property": "C217",
   "status": "partial",
   "theorems": [
    "C217_circles_refuted",
    "C217_square"
   ],
   "note": "REFUTED: the surfaces are ellipses as elongated as the domain; C217_square proves it for square domains"
  },
  {
   "property": "C218",
   "status": "proved",
   "theorems": [
    "C218_control",
    "C218_invariant",
    "C218_linear",
    "C218_mirror",
    "C218_regular",
    "C218_start"
   ],
   "note": "that the factorisation solves the systems is a hypothesis; C218_regular proves it for grids nine points wide with tall cells far from the axis, and any solver exact on regular systems"
  },
  {
   "property": "C219",
   "status": "partial",
   "theorems": [
    "C219_near_axis",
    "C219_refuted"
   ],
   "note": "REFUTED: with current concentrated at one point the flux is negative at grid points near the edge, for a regular matrix and an exact solver (C219_refuted) and, for every solver, on a square domain next to the axis (C219_near_axis); order 2 has the property (C166)"
  },
  {
   "property": "C220",
   "status": "proved",
   "theorems": [
    "C220_bound",
    "C220_contracts",
    "C220_converges",
    "C220_error",
    "C220_nine",
    "C220_stability"
   ],
   "note": "C and K exist for every grid with a regular matrix (C220_bound); explicit values are given for the family of C218_regular only, and nothing is claimed about how they grow when a general grid is refined"
  },
  {
   "property": "C221",
   "status": "partial",
   "theorems": [
    "C221_angle_refuted",
    "C221_compare_refuted",
    "C221_constructed",
    "C221_kind_refuted",
    "C221_places"
   ],
   "note": "REFUTED: sensors with the same number of points compare by place only (C221_places); a flux loop equals a field sensor at the same place and two field sensors at different angles are equal, though their readings differ; Rogowski loops with different numbers of corners raise ValueError when compared"
  },
  {
   "property": "C222",
   "status": "proved",
   "theorems": [
    "C222_consistent",
    "C222_fixed"
   ],
   "note": "C222_consistent for one solve, C222_fixed for the iteration; C and K as in C220_bound, explicit in C220_nine"
  },
  {
   "property": "C223",
   "status": "proved",
   "theorems": [
    "C223_contracts",
    "C223_converges",
    "C223_stability"
   ],
   "note": "C223_stability, C223_contracts, C223_converges"
  },
  {
   "property": "C224",
   "status": "proved",
   "theorems": [
    "C224_consistent",
    "C224_free"
   ],
   "note": "C224_consistent for one solve, C224_free for the iteration"
  },
  {
   "property": "C225",
   "status": "proved",
   "theorems": [
    "C225_linear"
   ],
   "note": "C225_linear"
  },
  {
   "property": "C226",
   "status": "proved",
   "theorems": [
    "C226_contracts",
    "C226_converges",
    "C226_stability"
   ],
   "note": "C226_stability, C226_contracts, C226_converges"
  },
  {
   "property": "C227",
   "status": "partial",
   "theorems": [
    "C227_positive_refuted"
   ],
   "note": "REFUTED: C227_positive_refuted: on a 5 x 5 grid with current concentrated two points from the edges the flux is negative at every edge point, because the one-sided differences of U at the edges have the wrong sign"
  },
  {
   "property": "C228",
   "status": "proved",
   "theorems": [
    "C228_contracts",
    "C228_converges",
    "C228_linear",
    "C228_stability"
   ],
   "note": "C228_linear, C228_stability, C228_contracts, C228_converges"
  },
  {
   "property": "C229",
   "status": "proved",
   "theorems": [
    "C229_fourth",
    "C229_second"
   ],
   "note": "C229_second, C229_fourth"
  },
  {
   "property": "C230",
   "status": "proved",
   "theorems": [
    "C230_current",
    "C230_flux"
   ],
   "note": "C230_current, C230_flux"
  },
  {
   "property": "C231",
   "status": "proved",
   "theorems": [
    "C231_same_solve"
   ],
   "note": "C231_same_solve"
  },
  {
   "property": "C232",
   "status": "partial",
   "theorems": [
    "C232_second_order_refuted"
   ],
   "note": "REFUTED: the order of the solver is not saved and a loaded equilibrium always has the fourth-order one. C232_second_order_refuted gives a second-order equilibrium on a 9 x 9 grid whose loaded version gives another plasma flux for the same current density."
  },
  {
   "property": "C233",
   "status": "proved",
   "theorems": [
    "C233_repeat",
    "C233_start"
   ],
   "note": "C233_start, C233_repeat"
  },
  {
   "property": "C234",
   "status": "partial",
   "theorems": [
    "C234_jacobi_refuted"
   ],
   "note": "REFUTED: the iterative solver starts from the plasma flux it finds and does not iterate to the end. C234_jacobi_refuted gives a 5 x 5 grid on which the second solve after setSolverVcycle(direct=False) changes the plasma flux."
  },
  {
   "property": "C235",
   "status": "proved",
   "theorems": [
    "C235_circuit",
    "C235_lines",
    "C235_place"
   ],
   "note": "C235_lines, C235_circuit, C235_place"
  },
  {
   "property": "C236",
   "status": "proved",
   "theorems": [
    "C236_values",
    "C236_within"
   ],
   "note": "C236_values, C236_within (the comment in the code speaks of 10% variations: the band is 10% wide)"
  },
  {
   "property": "C237",
   "status": "proved",
   "theorems": [
    "C237_trial"
   ],
   "note": "C237_trial"
  },
  {
   "property": "C238",
   "status": "proved",
   "theorems": [
    "C238_jacobi_repeat",
    "C238_limit"
   ],
   "note": "C238_jacobi_repeat, C238_limit: the complement of the refuted C234"
  },
  {
   "property": "C239",
   "status": "proved",
   "theorems": [
    "C239_same_value",
    "C239_untouched"
   ],
   "note": "C239_same_value, C239_untouched"
  },
  {
   "property": "C240",
   "status": "proved",
   "theorems": [
    "C240_error",
    "C240_fixed"
   ],
   "note": "C240_error, C240_fixed"
  }
 ]
}