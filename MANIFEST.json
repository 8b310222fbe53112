{
 "claims": [
  {
   "property": "C01",
   "status": "proved",
   "theorems": [
    "C01_calls_in_order",
    "C01_nonpositive_count"
   ],
   "note": ""
  },
  {
   "property": "C02",
   "status": "proved",
   "theorems": [
    "C02_fixed_dt_states_and_times",
    "C02_exact_times",
    "C02_splitting"
   ],
   "note": ""
  },
  {
   "property": "C03",
   "status": "partial",
   "theorems": [
    "C03_no_overflow_below_max",
    "C03_step_counter_refuted"
   ],
   "note": "False as stated: the count INT32_MAX overflows (refuted); proved for every smaller count."
  },
  {
   "property": "C04",
   "status": "proved",
   "theorems": [
    "C04_advance_to_target_point",
    "C04_every_run_is_as_specified",
    "C04_every_specified_run_happens",
    "C04_stops_at_first_time_reaching_target"
   ],
   "note": ""
  },
  {
   "property": "C05",
   "status": "proved",
   "theorems": [
    "C05_terminates",
    "C05_number_of_steps",
    "C05_number_of_reports",
    "C05_unset_step_size_refuted"
   ],
   "note": "The refuted theorem is the 'without the bound' half."
  },
  {
   "property": "C06",
   "status": "proved",
   "theorems": [
    "C06_backwards_throws_before_any_call",
    "C06_equal_returns_without_any_call"
   ],
   "note": ""
  },
  {
   "property": "C07",
   "status": "proved",
   "theorems": [
    "C07_advance_with_step_recovery",
    "C04_every_run_is_as_specified",
    "C04_every_specified_run_happens",
    "C07_retries_in_the_trace",
    "C07_attempt_sizes",
    "C07_sizes_are_geometric",
    "C05_terminates",
    "C07_zero_minimum_refuted"
   ],
   "note": "C07_zero_minimum_refuted shows min>0 is needed for termination."
  },
  {
   "property": "C08",
   "status": "partial",
   "theorems": [
    "C08_no_args_overload_refuted",
    "C08_witness_refuted"
   ],
   "note": "False of the code: refuted."
  },
  {
   "property": "C09",
   "status": "partial",
   "theorems": [
    "C09_lands_on_target_refuted"
   ],
   "note": "False of the code: refuted in binary64."
  },
  {
   "property": "C10",
   "status": "proved",
   "theorems": [
    "C10_textbook_update",
    "C10_integrated_by_the_advancer"
   ],
   "note": ""
  },
  {
   "property": "C11",
   "status": "proved",
   "theorems": [
    "C11_ab2_recurrence",
    "C11_recurrence_has_a_solution",
    "C11_integrated_by_the_advancer"
   ],
   "note": ""
  },
  {
   "property": "C12",
   "status": "proved",
   "theorems": [
    "C12_mass_matrix_one_step_schemes",
    "C12_mass_matrix_ab2"
   ],
   "note": ""
  },
  {
   "property": "C13",
   "status": "proved",
   "theorems": [
    "C13_quadrature_exact",
    "C13_linear_growth_factor",
    "C13_ab2_quadrature_exact"
   ],
   "note": ""
  },
  {
   "property": "C43",
   "status": "proved",
   "theorems": [
    "C43_failed_step_leaves_state",
    "C43_failed_step_leaves_state_mass_matrix",
    "C43_used_steppers_keep_their_buffers"
   ],
   "note": ""
  },
  {
   "property": "C44",
   "status": "partial",
   "theorems": [
    "C44_created_from_lvalue",
    "C44_created_from_temporary_partial",
    "C44_created_from_temporary_refuted",
    "C44_arbitrary_from_lvalue",
    "C44_arbitrary_from_temporary_partial",
    "C44_arbitrary_temporary_states",
    "C44_arbitrary_from_temporary_refuted"
   ],
   "note": "False of the code for temporaries: the buffers are made from the moved-from object (refuted). Proved for lvalues and for types whose moved-from value creates the same buffers."
  },
  {
   "property": "C45",
   "status": "partial",
   "theorems": [
    "C45_retry_one_step_schemes",
    "C45_retry_ab2_refuted"
   ],
   "note": "False of the code for AdamsBashforth2 (refuted); proved for the one-step schemes."
  },
  {
   "property": "C14",
   "status": "proved",
   "theorems": [
    "C14_residual_bdf1",
    "C14_residual_bdf2_first_step",
    "C14_residual_bdf2",
    "C14_residual_crank_nicolson",
    "C14_residual_bdf1_mass_matrix",
    "C14_residual_bdf2_mass_matrix_first_step",
    "C14_residual_bdf2_mass_matrix"
   ],
   "note": "That the stencil holds the true previous states is C16."
  },
  {
   "property": "C15",
   "status": "proved",
   "theorems": [
    "C15_jacobian_bdf1",
    "C15_jacobian_bdf2",
    "C15_jacobian_crank_nicolson",
    "C15_jacobian_bdf1_mass_matrix",
    "C15_jacobian_bdf2_mass_matrix"
   ],
   "note": "For every differentiable right-hand side; mass matrix not depending on the state."
  },
  {
   "property": "C16",
   "status": "proved",
   "theorems": [
    "C16_every_schedule_has_a_history",
    "C16_history_bdf1",
    "C16_history_bdf2",
    "C16_history_bdf1_mass_matrix",
    "C16_history_bdf2_mass_matrix",
    "C16_history_fully_discrete"
   ],
   "note": ""
  },
  {
   "property": "C17",
   "status": "proved",
   "theorems": [
    "C17_failed_step_restores_the_state",
    "C17_solve_failure_is_translated",
    "C17_fully_discrete"
   ],
   "note": ""
  },
  {
   "property": "C18",
   "status": "partial",
   "theorems": [
    "C18_state_refuted",
    "C18_history_refuted"
   ],
   "note": "False of the code: refuted."
  },
  {
   "property": "C19",
   "status": "partial",
   "theorems": [
    "C19_first_run_partial",
    "C19_second_run_refuted"
   ],
   "note": "False of the code for a second run of the same stepper object (refuted); proved for every history of attempts in the first run."
  },
  {
   "property": "C20",
   "status": "partial",
   "theorems": [
    "C20_refuted"
   ],
   "note": "False of the code: refuted."
  },
  {
   "property": "C46",
   "status": "partial",
   "theorems": [
    "C46_velocity_failure_rolls_back",
    "C46_velocity_failure_rolls_back_mass_matrix",
    "C46_crank_nicolson_refuted"
   ],
   "note": "False of the code for CrankNicolson (refuted); proved for BDF1 and BDF2."
  },
  {
   "property": "C47",
   "status": "partial",
   "theorems": [
    "C47_constant_slope_bdf1",
    "C47_constant_slope_crank_nicolson",
    "C47_constant_slope_bdf2_uniform_partial",
    "C47_bdf2_refuted"
   ],
   "note": "False of the code for BDF2 with changing step sizes (refuted); proved for BDF1 and CrankNicolson with any sizes and BDF2 with equal sizes."
  },
  {
   "property": "C48",
   "status": "proved",
   "theorems": [
    "C48_to_target_bdf1",
    "C48_n_steps_bdf1",
    "C48_to_target_bdf2",
    "C48_n_steps_bdf2",
    "C48_to_target_crank_nicolson",
    "C48_n_steps_crank_nicolson",
    "C48_to_target_bdf1_mass_matrix",
    "C48_n_steps_bdf1_mass_matrix",
    "C48_to_target_bdf2_mass_matrix",
    "C48_n_steps_bdf2_mass_matrix"
   ],
   "note": "CrankNicolson: fresh stepper object and a right-hand side depending on its arguments only."
  },
  {
   "property": "C21",
   "status": "proved",
   "theorems": [
    "C21_least_squares_run",
    "C21_newton_run",
    "C21_least_squares_iterates",
    "C21_newton_iterates",
    "C21_least_squares_values",
    "C21_newton_values",
    "C21_least_squares_evaluations",
    "C21_newton_evaluations",
    "C21_default_least_squares",
    "C21_default_newton"
   ],
   "note": ""
  },
  {
   "property": "C22",
   "status": "partial",
   "theorems": [
    "C22_least_squares",
    "C22_newton_partial",
    "C22_newton_refuted"
   ],
   "note": "False of the code for the root finder with a gradient criterion: it throws (refuted); proved for every other combination."
  },
  {
   "property": "C23",
   "status": "proved",
   "theorems": [
    "C23_least_squares",
    "C23_newton"
   ],
   "note": ""
  },
  {
   "property": "C24",
   "status": "proved",
   "theorems": [
    "C24_backtracking",
    "C24_backtracking_newton",
    "C24_evaluations",
    "C24_evaluations_newton",
    "C24_solve",
    "C24_solve_newton",
    "C24_never_increases",
    "C24_never_increases_newton"
   ],
   "note": ""
  },
  {
   "property": "C25",
   "status": "partial",
   "theorems": [
    "C25_refuted",
    "C25_partial",
    "C25_newton_partial"
   ],
   "note": "False of the code with the default parameter: equal objectives are accepted (refuted); proved for a parameter below 1."
  },
  {
   "property": "C26",
   "status": "partial",
   "theorems": [
    "C26_refuted",
    "C26_newton_refuted",
    "C26_armijo_updater_partial"
   ],
   "note": "False of the code: selecting Armijo runs the backtracking update (refuted) and throws for the root finder; the unused Armijo updater itself is proved to enforce its test."
  },
  {
   "property": "C27",
   "status": "proved",
   "theorems": [
    "C27_one_iteration",
    "C27_solve"
   ],
   "note": ""
  },
  {
   "property": "C28",
   "status": "proved",
   "theorems": [
    "C28_schedule1",
    "C28_schedule2",
    "C28_restarts",
    "C28_restarts_growth"
   ],
   "note": ""
  },
  {
   "property": "C29",
   "status": "partial",
   "theorems": [
    "C29_refuted",
    "C29_gain_partial"
   ],
   "note": "False of the code: refuted; C29_gain_partial gives the ratio the code computes."
  },
  {
   "property": "C30",
   "status": "proved",
   "theorems": [
    "C30_gauss_newton",
    "C30_qr_is_normal_equations",
    "C30_weighted",
    "C30_compact_weighted",
    "C30_levenberg_marquardt",
    "C30_identity_weight",
    "C30_compact_is_weighted"
   ],
   "note": ""
  },
  {
   "property": "C31",
   "status": "proved",
   "theorems": [
    "C31_newton",
    "C31_gauss_newton"
   ],
   "note": ""
  },
  {
   "property": "C32",
   "status": "proved",
   "theorems": [
    "C32_lookup",
    "C32_printed",
    "C32_stop_criterion"
   ],
   "note": ""
  },
  {
   "property": "C40",
   "status": "proved",
   "theorems": [
    "C40_factorisation",
    "C40_least_squares_solution",
    "C40_never_fails",
    "C40_gauss_newton",
    "C40_newton"
   ],
   "note": "Also that solving with the factors gives the least-squares solution, and Gauss-Newton and Newton end to end with it."
  },
  {
   "property": "C49",
   "status": "partial",
   "theorems": [
    "C49_newton",
    "C49_least_squares_writes_nothing",
    "C49_least_squares_refuted"
   ],
   "note": "False of the code for the least-squares solvers (refuted); proved for the root finder."
  },
  {
   "property": "C50",
   "status": "partial",
   "theorems": [
    "C50_absolute_residual_partial",
    "C50_relative_refuted"
   ],
   "note": "False of the code for the relative criteria in binary64, 0/0 (refuted); proved for the absolute residual criterion."
  },
  {
   "property": "C51",
   "status": "partial",
   "theorems": [
    "C51_refuted"
   ],
   "note": "False of the code: refuted."
  },
  {
   "property": "C52",
   "status": "partial",
   "theorems": [
    "C52_newton_partial",
    "C52_least_squares_partial",
    "C52_trial_state_refuted"
   ],
   "note": "False of the code for failures at trial states of a line search (refuted); proved for the standard update."
  },
  {
   "property": "C53",
   "status": "proved",
   "theorems": [
    "C53_bdf1",
    "C53_bdf2",
    "C53_bdf1_mass_matrix",
    "C53_bdf2_mass_matrix"
   ],
   "note": ""
  },
  {
   "property": "C55",
   "status": "partial",
   "theorems": [
    "C55_refuted"
   ],
   "note": "False of the code: INT_MAX overflows the iteration counter (refuted); every smaller value is covered by C22."
  },
  {
   "property": "C56",
   "status": "partial",
   "theorems": [
    "C56_refuted"
   ],
   "note": "False of the code with default settings (absolute correction tolerance): refuted."
  },
  {
   "property": "C57",
   "status": "partial",
   "theorems": [
    "C57_overwritten",
    "C57_refuted"
   ],
   "note": "False of the code: the Gram-Schmidt factorisation overwrites its input, C57_overwritten says with what."
  },
  {
   "property": "C58",
   "status": "partial",
   "theorems": [
    "C58_more_columns_refuted",
    "C58_fewer_columns_refuted",
    "C58_same_columns_partial"
   ],
   "note": "False of the code for other column counts (refuted); proved for the same count."
  },
  {
   "property": "C54",
   "status": "proved",
   "theorems": [
    "C54_same_as_newton",
    "C54_update_setting_ignored"
   ],
   "note": "Standard update. C54_update_setting_ignored: with assertions off any other update setting is silently the standard one."
  },
  {
   "property": "C33",
   "status": "partial",
   "theorems": [
    "C33_values",
    "C33_temporaries",
    "C33_copies",
    "C33_linear_subspace",
    "C33_handles_partial",
    "C33_handles_untouched_refuted",
    "C33_handles_fixed_refuted"
   ],
   "note": "False of the code for full-state types with view semantics (refuted): the translation is copied shallowly; proved for value semantics and for copies."
  },
  {
   "property": "C59",
   "status": "partial",
   "theorems": [
    "C59_basis_affine_partial",
    "C59_basis_refuted"
   ],
   "note": "False of the code for subspaces that are not affine: null dereference (refuted); the other accessors are proved in the C33 theorems."
  },
  {
   "property": "C34",
   "status": "proved",
   "theorems": [
    "C34_default",
    "C34_hyper_reduced",
    "C34_masked",
    "C34_scaled",
    "C34_scaled_hyper_reduced",
    "C34_fully_discrete",
    "C34_galerkin_fully_discrete",
    "C34_newton_asks",
    "C34_least_squares_asks",
    "C34_no_evaluation_refuted"
   ],
   "note": "C34_no_evaluation_refuted: the hypothesis that the solver evaluates is needed; the *_asks theorems show it for the solvers of the library."
  },
  {
   "property": "C35",
   "status": "partial",
   "theorems": [
    "C35_default_partial",
    "C35_hyper_reduced_partial",
    "C35_masked_partial",
    "C35_scaled_partial",
    "C35_scaled_hyper_reduced_partial",
    "C35_fully_discrete_partial",
    "C35_galerkin_fully_discrete_partial",
    "C35_refuted",
    "C35_stale_start",
    "C35_stale_start_discrete"
   ],
   "note": "False of the code if the previous run ended in its step 1 (refuted); proved otherwise."
  },
  {
   "property": "C36",
   "status": "partial",
   "theorems": [
    "C36_read",
    "C36_read_short",
    "C36_write_partial",
    "C36_write_refuted",
    "C36_wrong_entry_refuted",
    "C36_shift",
    "C36_shift_other_sizes"
   ],
   "note": "False of the code for reconstructing n-2, which writes entry 4 of 4 (refuted); proved for the rest."
  },
  {
   "property": "C38",
   "status": "proved",
   "theorems": [
    "C38_bdf1",
    "C38_bdf2",
    "C38_hyper_reduced",
    "C38_masked",
    "C38_identity_bdf1",
    "C38_identity_bdf2"
   ],
   "note": ""
  },
  {
   "property": "C60",
   "status": "partial",
   "theorems": [
    "C60_refuted"
   ],
   "note": "False of the code: refuted."
  },
  {
   "property": "C61",
   "status": "partial",
   "theorems": [
    "C61_default",
    "C61_hyper_reduced",
    "C61_scaled",
    "C61_masked_refuted"
   ],
   "note": "False of the code for masked problems (refuted); proved for the others."
  },
  {
   "property": "C37",
   "status": "proved",
   "theorems": [
    "C37_rhs",
    "C37_rhs_and_jacobian",
    "C37_mass_matrix_and_rhs",
    "C37_mass_matrix_rhs_and_jacobian",
    "C37_steady",
    "C37_steady_matrix_free",
    "C37_jacobian_is_derivative",
    "C37_mass_matrix_jacobian_is_derivative",
    "C37_steady_jacobian_is_derivative",
    "C37_steady_apply_is_derivative",
    "C37_explicit_one_step_schemes",
    "C37_explicit_ab2",
    "C37_explicit_mass_matrix",
    "C37_implicit",
    "C37_implicit_mass_matrix",
    "C37_identity_basis",
    "C37_fom_failure",
    "C37_jacobian_only_on_request"
   ],
   "note": ""
  },
  {
   "property": "C62",
   "status": "partial",
   "theorems": [
    "C62_explicit_galerkin_partial",
    "C62_lspg",
    "C62_lspg_moved_from",
    "C62_copied_explicit_galerkin_refuted",
    "C62_moved_explicit_galerkin_refuted"
   ],
   "note": "False of the code for explicit Galerkin problems: a copy refers to the original (refuted); proved for LSPG problems and for problems that are not copied or moved."
  },
  {
   "property": "C63",
   "status": "partial",
   "theorems": [
    "C63_orthonormal_basis_partial",
    "C63_mass_matrix_partial",
    "C63_any_basis_refuted"
   ],
   "note": "False of the code unless the basis is orthonormal or the problem has a mass matrix (refuted)."
  },
  {
   "property": "C64",
   "status": "partial",
   "theorems": [
    "C64_hyper_reduced_steady_refuted",
    "C37_steady",
    "C37_steady_matrix_free"
   ],
   "note": "False of the code: residual and applyJacobian of hyper-reduced problems throw (refuted); the other methods are covered by C37."
  },
  {
   "property": "C39",
   "status": "partial",
   "theorems": [
    "C39_linear_operator",
    "C39_matrix_operator_partial",
    "C39_matrix_forcing_refuted",
    "C39_failure",
    "C39_vector_operator"
   ],
   "note": "Proved for the linear operator. False of the code for the third vector of the matrix operator, which is never initialised (refuted)."
  },
  {
   "property": "C42",
   "status": "partial",
   "theorems": [
    "C42_semi_discrete",
    "C42_fully_discrete",
    "C42_count",
    "C42_no_rows_refuted",
    "C42_too_many_values_refuted",
    "C42_too_few_values_refuted"
   ],
   "note": "Proved for files with at least one row and rows of the right length. False of the code for other files: undefined behaviour (refuted)."
  },
  {
   "property": "C65",
   "status": "partial",
   "theorems": [
    "C65_six_digits_partial",
    "C65_relative_error_partial",
    "C65_refuted"
   ],
   "note": "False of the code: six significant digits are written (refuted). The model of printing covers whole numbers only."
  },
  {
   "property": "C66",
   "status": "partial",
   "theorems": [
    "C66_refuted",
    "C42_semi_discrete"
   ],
   "note": "False of the code: with assertions off every scheme is silently BDF1 (refuted)."
  },
  {
   "property": "C41",
   "status": "partial",
   "theorems": [
    "C41_outside_throws_partial",
    "C41_inside_creates",
    "C41_explicit_steps",
    "C41_adams_bashforth_steps",
    "C41_mass_matrix_steps",
    "C41_implicit_steps",
    "C41_implicit_mass_matrix_steps_partial",
    "C41_lspg_steps",
    "C41_crank_nicolson_refuted",
    "C41_mass_matrix_refuted"
   ],
   "note": "False of the code in two cases (refuted): with assertions off the implicit steppers accept Crank-Nicolson, which their documentation excludes; implicit Galerkin problems with mass matrix accept it as documented but every step throws."
  },
  {
   "property": "C67",
   "status": "proved",
   "theorems": [
    "C67_residual_and_jacobian",
    "C67_jacobian_is_derivative",
    "C67_fom_failure",
    "C67_jacobian_only_on_request"
   ],
   "note": ""
  },
  {
   "property": "C68",
   "status": "proved",
   "theorems": [
    "C68_lspg_gauss_newton",
    "C68_galerkin_newton"
   ],
   "note": "Linear solves by the library's modified Gram-Schmidt factorisation, exact arithmetic; standard update."
  },
  {
   "property": "C69",
   "status": "partial",
   "theorems": [
    "C69_same_index_partial",
    "C69_missing_index_refuted",
    "C69_hyper_reduced"
   ],
   "note": "False of the code with assertions off if the stencil mesh lacks an index: access out of bounds (refuted); proved otherwise."
  },
  {
   "property": "C70",
   "status": "partial",
   "theorems": [
    "C70_getrs",
    "C70_potrs",
    "C70_geqrf_partial",
    "C70_geqrf_refuted"
   ],
   "note": "False of the code for geqrf (refuted): the workspace size is queried for the first system only, so a later system larger than that workspace is rejected by LAPACK; release builds ignore this and return a wrong solution. Proved for the other solvers and, for geqrf, up to that size."
  },
  {
   "property": "C71",
   "status": "partial",
   "theorems": [
    "C71_debug_partial",
    "C71_refuted"
   ],
   "note": "False of the code (refuted): return codes are only asserted, release builds return normally; geqrf does so in every build. With assertions LU and Cholesky end the program."
  },
  {
   "property": "C72",
   "status": "partial",
   "theorems": [
    "C72_direct",
    "C72_direct_with_matrix",
    "C72_iterative_partial",
    "C72_iterative_with_matrix",
    "C72_iterative_refuted",
    "C72_matrix_free",
    "C72_matrix_free_nothing_given",
    "C72_matrix_free_with_operator",
    "C72_matrix_free_solves"
   ],
   "note": "False for iterative solvers (refuted): Eigen keeps a reference to the matrix. Proved for direct solvers and for matrices that are not changed in between. The matrix-free solver answers for the operator as it is at the time of the solve."
  },
  {
   "property": "C73",
   "status": "partial",
   "theorems": [
    "C73_static",
    "C73_dynamic_partial",
    "C73_dynamic_refuted",
    "C73_copy_partial",
    "C73_copy_refuted",
    "C73_outside",
    "C73_default_size_refuted"
   ],
   "note": "False of the code for element types with view semantics (refuted): the dynamic container shares and erases the objects it is given, copies share their data; the size of a default constructed dynamic container is indeterminate. Proved otherwise."
  },
  {
   "property": "C74",
   "status": "proved",
   "theorems": [
    "C74_least_squares",
    "C74_newton"
   ],
   "note": ""
  },
  {
   "property": "C75",
   "status": "proved",
   "theorems": [
    "C75_explicit",
    "C75_explicit_mass_matrix",
    "C75_implicit",
    "C75_any_basis_refuted"
   ],
   "note": "Without an orthonormal basis and without mass matrix it fails (C75_any_basis_refuted)."
  },
  {
   "property": "C76",
   "status": "proved",
   "theorems": [
    "C76_one_step_schemes",
    "C76_adams_bashforth",
    "C76_mass_matrix",
    "C76_mass_matrix_adams_bashforth",
    "C76_initial_state",
    "C76_initial_state_adams_bashforth",
    "C76_convergence",
    "C76_convergence_adams_bashforth",
    "C76_forward_euler_converges"
   ],
   "note": "Over the reals. The local error of the schemes is a hypothesis, except for forward Euler on scalar equations, where it is derived."
  },
  {
   "property": "C77",
   "status": "proved",
   "theorems": [
    "C77_bdf1",
    "C77_bdf2",
    "C77_crank_nicolson",
    "C77_bdf1_error",
    "C77_bdf2_error",
    "C77_crank_nicolson_error",
    "C77_bdf1_mass_matrix",
    "C77_bdf2_mass_matrix",
    "C77_backward_euler_error"
   ],
   "note": "Over the reals."
  },
  {
   "property": "C78",
   "status": "proved",
   "theorems": [
    "C78_one_step_schemes",
    "C78_adams_bashforth",
    "C78_forward_euler_a_posteriori",
    "C78_orthonormal_basis",
    "C78_mass_matrix",
    "C78_mass_matrix_adams_bashforth",
    "C78_bdf1",
    "C78_bdf2",
    "C78_crank_nicolson",
    "C78_rom_stable_bdf1",
    "C78_rom_stable_bdf2",
    "C78_rom_stable_crank_nicolson"
   ],
   "note": "Over the reals."
  },
  {
   "property": "C79",
   "status": "proved",
   "theorems": [
    "C79_lspg_values",
    "C79_galerkin_values",
    "C79_lspg_failures",
    "C79_galerkin_failures",
    "C79_lspg_jacobian_is_derivative",
    "C79_galerkin_jacobian_is_derivative"
   ],
   "note": "The derivative over the reals."
  },
  {
   "property": "C80",
   "status": "proved",
   "theorems": [
    "C80_n_steps_lspg",
    "C80_to_target_lspg",
    "C80_n_steps_scaled",
    "C80_to_target_scaled",
    "C80_n_steps_masked",
    "C80_to_target_masked",
    "C80_n_steps_hyper_reduced",
    "C80_to_target_hyper_reduced",
    "C80_n_steps_scaled_hyper_reduced",
    "C80_to_target_scaled_hyper_reduced",
    "C80_n_steps_fully_discrete",
    "C80_to_target_fully_discrete",
    "C80_n_steps_galerkin_fully_discrete",
    "C80_to_target_galerkin_fully_discrete"
   ],
   "note": "Solvers are any that return only states whose residual and Jacobian they accepted; the library's own solvers also return at their iteration limit."
  },
  {
   "property": "C81",
   "status": "proved",
   "theorems": [
    "C81_n_steps",
    "C81_to_target"
   ],
   "note": "Exact arithmetic; the inner linear solver solves every system that has exactly one solution. Steps whose matrix has dependent columns are covered by the part on successful completion only."
  },
  {
   "property": "C82",
   "status": "proved",
   "theorems": [
    "C82_n_steps",
    "C82_to_target",
    "C82_n_steps_mass_matrix",
    "C82_to_target_mass_matrix",
    "C82_dissipative",
    "C82_stable_bdf1",
    "C82_stable_bdf2",
    "C82_stable_crank_nicolson",
    "C82_error_bdf1",
    "C82_error_bdf2",
    "C82_error_crank_nicolson"
   ],
   "note": "Exact arithmetic; the inner linear solver solves every system that has exactly one solution. Steps whose matrix is singular are covered by the part on successful completion only."
  },
  {
   "property": "C83",
   "status": "proved",
   "theorems": [
    "C83_n_steps",
    "C83_to_target",
    "C83_exact",
    "C83_dissipative",
    "C83_stable_bdf1",
    "C83_stable_bdf2",
    "C83_stable_crank_nicolson",
    "C83_error_bdf1",
    "C83_error_bdf2",
    "C83_error_crank_nicolson"
   ],
   "note": "Exact arithmetic; the inner linear solver solves every system that has exactly one solution."
  },
  {
   "property": "C84",
   "status": "partial",
   "theorems": [
    "C84_named_objects",
    "C84_other_system",
    "C84_temporary_linear_solver",
    "C84_copy",
    "C84_move",
    "C84_moved_from",
    "C84_system_destroyed",
    "C84_linear_solver_destroyed",
    "C84_temporary_system_refuted",
    "C84_compact_temporary_refuted"
   ],
   "note": "False of the code (refuted): a solver keeps only the address of its system, so solve(x) after creation from a temporary system is undefined behaviour (excluded by a documented precondition for Newton, by none for the other factories); a compact weighting operator given as a temporary is asked for its leading dimension after it was moved from. Proved for every other case."
  },
  {
   "property": "C85",
   "status": "proved",
   "theorems": [
    "C85_getrs",
    "C85_potrs",
    "C85_geqrf",
    "C85_eigen_direct",
    "C85_root_finders",
    "C85_least_squares",
    "C85_newton",
    "C85_gauss_newton",
    "C85_n_steps",
    "C85_to_target",
    "C85_n_steps_mass_matrix",
    "C85_to_target_mass_matrix"
   ],
   "note": "Exact arithmetic, release build; LAPACK is any implementation meeting its documentation (lapack_ok), Eigen's factorisations solve nonsingular systems (factorises). potrs: for symmetric positive definite matrices, that is for the normal equations."
  },
  {
   "property": "C86",
   "status": "partial",
   "theorems": [
    "C86_n_steps_partial",
    "C86_to_target_partial",
    "C86_single_step",
    "C86_n_steps_exact",
    "C86_to_target_exact",
    "C86_n_steps_refuted",
    "C86_retry_refuted"
   ],
   "note": "False of the code (refuted): the arguments are std::forward-ed again at every step and every retry, so a temporary (or std::move-d object) that the stepper takes by value, or moves from, is empty from the second call on. Proved for named objects, for parameters that only refer and for types whose move is a copy, and for runs of one step; the exact law for all arguments is proved as well."
  },
  {
   "property": "C87",
   "status": "proved",
   "theorems": [
    "C87_last_matrix",
    "C87_asking_changes_nothing",
    "C87_before_first_factorisation",
    "C87_factors",
    "C87_least_squares",
    "C87_gauss_newton",
    "C87_tpetra",
    "C87_tpetra_asking"
   ],
   "note": "Exact arithmetic; Eigen's HouseholderQR is any factorisation meeting its documentation (householder)."
  },
  {
   "property": "C88",
   "status": "partial",
   "theorems": [
    "C88_copy_refuted",
    "C88_solution_refuted",
    "C88_same_size",
    "C88_other_size_partial",
    "C88_triangular_factor_kept",
    "C88_unrelated_objects",
    "C88_tpetra"
   ],
   "note": "False of the code (refuted): copies share the matrix Q. It is overwritten unless both the number of rows and the number of columns differ; proved for that case, for objects that are not copies of each other, and for the Tpetra object."
  },
  {
   "property": "C89",
   "status": "partial",
   "theorems": [
    "C89_debug_build_partial",
    "C89_release_build_refuted",
    "C89_different_vectors",
    "C89_short_vectors",
    "C89_long_vectors"
   ],
   "note": "False of the code (refuted): without assertions a system with longer vectors is solved silently, and with shorter ones the right hand side is returned (if LAPACK's error handler returns). Proved with assertions for all objects and sizes; vectors of different lengths throw in every build."
  },
  {
   "property": "C90",
   "status": "proved",
   "theorems": [
    "C90_newton",
    "C90_newton_finds",
    "C90_gauss_newton",
    "C90_gauss_newton_finds",
    "C90_every_tolerance",
    "C90_lipschitz"
   ],
   "note": "Exact arithmetic; the linear solver solves every system that has exactly one solution. The Lipschitz derivative enters through the quadratic error of the linearisation, which C90_lipschitz derives from it."
  },
  {
   "property": "C91",
   "status": "proved",
   "theorems": [
    "C91_newton",
    "C91_newton_finds",
    "C91_n_steps",
    "C91_to_target",
    "C91_dissipative",
    "C91_error_bdf1",
    "C91_error_bdf2",
    "C91_error_crank_nicolson",
    "C91_bounded",
    "C91_bounded_bdf2"
   ],
   "note": "Exact arithmetic; the linear solver returns, and solves every system that has exactly one solution. Crank-Nicolson with steps that do not grow; its initial difference is that of y - dt/2 f(y). C91_bounded and C91_bounded_bdf2 give one condition on the largest step size for bounded right hand sides."
  },
  {
   "property": "C92",
   "status": "proved",
   "theorems": [
    "C92_converges",
    "C92_finds",
    "C92_every_tolerance",
    "C92_matrices"
   ],
   "note": "Exact arithmetic; the linear solver returns, and solves every system that has exactly one solution. The wrong gain ratio of C29 does no harm here: for a linear problem it is at least 1, so corrections are accepted and the damping is reduced."
  },
  {
   "property": "C93",
   "status": "proved",
   "theorems": [
    "C93_n_steps",
    "C93_to_target",
    "C93_dissipative",
    "C93_error_bdf1",
    "C93_error_bdf2",
    "C93_error_crank_nicolson"
   ],
   "note": "Exact arithmetic; the linear solver returns, and solves every system that has exactly one solution. The error bounds assume that the steps of both runs are begun well (small enough steps or starting residuals, see C91_bounded for a condition on the step size). Crank-Nicolson with steps that do not grow; its initial difference is that of y - dt/2 f(y)."
  },
  {
   "property": "C94",
   "status": "proved",
   "theorems": [
    "C94_forward_euler",
    "C94_adams_bashforth",
    "C94_ssp_runge_kutta_3",
    "C94_runge_kutta_4",
    "C94_bdf1",
    "C94_bdf2",
    "C94_crank_nicolson",
    "C94_newton_bdf1",
    "C94_newton_bdf2",
    "C94_newton_crank_nicolson"
   ],
   "note": "Exact arithmetic. The Runge-Kutta orders assume that f has a Taylor expansion with bounded coefficients along the solution (to the second derivative for the three-stage, the third for the four-stage scheme). The Newton versions assume that the steps are begun well (C91_bounded, C91_bounded_bdf2 give a condition on the step size). Crank-Nicolson's initial error is that of y - dt/2 f(y)."
  },
  {
   "property": "C95",
   "status": "proved",
   "theorems": [
    "C95_forward_euler",
    "C95_adams_bashforth",
    "C95_ssp_runge_kutta_3",
    "C95_runge_kutta_4",
    "C95_bdf1",
    "C95_bdf2",
    "C95_crank_nicolson",
    "C95_newton_bdf1",
    "C95_newton_bdf2",
    "C95_newton_crank_nicolson"
   ],
   "note": "Exact arithmetic; an affine trial space and no mass matrix. Assumptions on the solution and on f as in C94, on Newton's steps as in C93. Crank-Nicolson with steps that do not grow; its initial difference is that of y - dt/2 f(y)."
  },
  {
   "property": "C96",
   "status": "proved",
   "theorems": [
    "C96_gauss_newton",
    "C96_gauss_newton_finds",
    "C96_every_tolerance",
    "C96_geometric",
    "C96_lipschitz"
   ],
   "note": "Exact arithmetic; the linear solver solves every system that has exactly one solution. C96_lipschitz derives the bounds on the linearisation from a Lipschitz derivative."
  },
  {
   "property": "C97",
   "status": "proved",
   "theorems": [
    "C97_n_steps",
    "C97_to_target",
    "C97_fom_step"
   ],
   "note": "Exact arithmetic; the default residual policy (no mask, hyper-reduction or scaling); the FOM and the observer do not fail; the linear solver solves every system that has exactly one solution. The conclusion about a step is conditional on its residual having a least-squares solution of the kind of C96 near the state before."
  },
  {
   "property": "C98",
   "status": "proved",
   "theorems": [
    "C98_scaled_n_steps",
    "C98_scaled_to_target",
    "C98_masked_n_steps",
    "C98_masked_to_target",
    "C98_hyper_reduced_n_steps",
    "C98_hyper_reduced_to_target",
    "C98_scaled_hyper_reduced_n_steps",
    "C98_scaled_hyper_reduced_to_target",
    "C98_fully_discrete_n_steps",
    "C98_fully_discrete_to_target",
    "C98_galerkin_fully_discrete_n_steps",
    "C98_galerkin_fully_discrete_to_target"
   ],
   "note": "Exact arithmetic; the user's objects and the observer do not fail; the linear solver solves every system that has exactly one solution. The conclusions about a step are conditional as in C97 (a regular least-squares solution near the state before) and C91 (the step starts well)."
  },
  {
   "property": "C99",
   "status": "proved",
   "theorems": [
    "C99_galerkin_newton",
    "C99_galerkin_quasi_optimal",
    "C99_galerkin_error",
    "C99_lspg_gauss_newton",
    "C99_lspg_fom_solution",
    "C99_lspg_error"
   ],
   "note": "Exact arithmetic; the FOM and the user's operators never fail; linear solves are exact where a solution exists. Global convergence is not claimed: the good starts are those of C91 and C96. C99_galerkin_quasi_optimal is the estimate used by C99_galerkin_error."
  },
  {
   "property": "C100",
   "status": "proved",
   "theorems": [
    "C100_n_steps",
    "C100_to_target"
   ],
   "note": "Exact arithmetic; BDF1 and the default residual policy; the FOM and the observer do not fail; the linear solver solves every system that has exactly one solution, and the systems of matrices with independent columns have one (shown for matrices and modified Gram-Schmidt in ExRomLs)."
  },
  {
   "property": "C101",
   "status": "proved",
   "theorems": [
    "C101_same_trial_space",
    "C101_dissipative"
   ],
   "note": "Exact arithmetic; the default residual policy; the FOM and the observer do not fail; the linear solver solves every system that has exactly one solution. The two runs measure residuals with the same norm."
  }
 ]
}