{"id": "C01", "title": "advance_n_steps calls the user's objects in a fixed order at the right times", "statement": "advance_n_steps(stepper,state,t0,dt-or-policy,N,guesser,observer) calls the observer once with (0,t0,initial state), then for step k=1..N calls, in this order: the step-size policy with (k,t_{k-1}), the guesser with (k,t_{k-1},state), the stepper with (state,t_{k-1},k,dt_k) and the observer with (k,t_k,new state), where t_k = t_{k-1} + dt_k in the independent variable's own addition. If any of these throws, nothing after the throwing call is called. N<=0 means only the initial observation.", "quantifier": "every stepper, policy, guesser and observer (stateful and throwing ones included), every start value, every N that is not the largest int32, every addition (floating point included)", "why_tests_cant": "the sequence has to be right for every N and every reaction of four user-supplied stateful objects; a test fixes all of them", "anchors": ["include/pressio/ode/impl/ode_advance_n_steps.hpp: advance_n_steps_with_dt_policy, advance_n_steps_with_fixed_dt", "include/pressio/ode/ode_advance_n_steps.hpp", "include/pressio/ode/ode_advance_n_steps_with_guesser.hpp"]}
{"id": "C02", "title": "Fixed step size: k-th time, and splitting a run", "statement": "With a constant step size h the stepper is called at t0+(k-1)h for k=1..N (exact arithmetic) and the returned state is the N-fold composition of the stepper. If the stepper does not look at the step number, advancing N+M steps equals advancing N steps and then M steps from t0+N*h.", "quantifier": "every stepper, N, M, start, step size in any ring of scalars", "why_tests_cant": "needs all N and M and all steppers", "anchors": ["include/pressio/ode/impl/ode_advance_n_steps.hpp: advance_n_steps_with_fixed_dt"]}
{"id": "C03", "title": "Step counter does not overflow", "statement": "advance_n_steps terminates without integer overflow for every requested number of steps.", "quantifier": "every int32 number of steps", "why_tests_cant": "the failing run takes 2^31 steps", "anchors": ["include/pressio/ode/impl/ode_advance_n_steps.hpp: for loop on StepCount::value_type"]}
{"id": "C04", "title": "advance_to_target_point stops at the first step that reaches the target", "statement": "If the run returns normally and start<final, at least one step was made, the last reported time is at the target up to the machine epsilon or past it, and every earlier reported time was below the target by more than epsilon; the reported times start at `start` and each one is the previous plus the step size used.", "quantifier": "every stepper, policy, observer, start, final", "why_tests_cant": "the loop is unbounded and driven by user code", "anchors": ["include/pressio/ode/impl/ode_advance_to_target_time.hpp: to_target_time_with_step_size_policy"]}
{"id": "C05", "title": "advance_to_target_point terminates when the step sizes are bounded below", "statement": "If the policy always sets a step size of at least d>0 and the stepper succeeds, the run returns after at most ceil((final-start)/d) steps. Without the bound (e.g. a policy that leaves the step size at its initial value) the run never returns.", "quantifier": "every policy and stepper, every start/final in an archimedean field", "why_tests_cant": "termination of an unbounded loop", "anchors": ["include/pressio/ode/impl/ode_advance_to_target_time.hpp"]}
{"id": "C06", "title": "advance_to_target_point input checks", "statement": "final<start throws and no user object is called; final==start returns and no user object is called, not even the observer.", "quantifier": "every stepper, policy, observer, start, final", "why_tests_cant": "all user objects", "anchors": ["include/pressio/ode/impl/ode_advance_to_target_time.hpp"]}
{"id": "C07", "title": "Step recovery retries with geometrically smaller steps and never below the minimum", "statement": "With step recovery, when the stepper signals TimeStepFailure the same step (same number, same start time) is tried again with the step size divided by the scaling factor, until it succeeds or the size falls below the policy's minimum, in which case an exception is thrown. Every attempted step size is dt/s^j and is >= the minimum; time advances by the size that succeeded; the number of attempts per step is bounded when min>0 and s>1.", "quantifier": "every stepper failure pattern, every policy", "why_tests_cant": "all failure patterns", "anchors": ["include/pressio/ode/impl/ode_advance_to_target_time.hpp", "include/pressio/ode/ode_advance_to_target_point_with_step_recovery_variadic.hpp"]}
{"id": "C08", "title": "Every advance_to_target_point_with_step_recovery overload recovers", "statement": "The overloads of advance_to_target_point_with_step_recovery without auxiliary stepper arguments behave like the ones with them: a recoverable failure is retried with a smaller step.", "quantifier": "every stepper", "why_tests_cant": "the existing tests only exercise the variadic overloads", "anchors": ["include/pressio/ode/ode_advance_to_target_point_with_step_recovery.hpp"]}
{"id": "C09", "title": "The run lands on the target in floating point", "statement": "Advancing to final with a constant step size that divides final-start takes exactly (final-start)/dt steps in binary64.", "quantifier": "every start, final, dt in binary64", "why_tests_cant": "depends on accumulated rounding for every input", "anchors": ["include/pressio/ode/impl/ode_advance_to_target_time.hpp: eps test"]}
{"id": "C10", "title": "One-step explicit schemes compute their textbook update", "statement": "ForwardEuler, RungeKutta4 and SSPRungeKutta3 steppers map state y at time t with step h to the value given by their Butcher/Shu-Osher tableau, evaluating the right-hand side at exactly the tableau's abscissae, whatever was computed with the same stepper before.", "quantifier": "every right-hand side, state, time, step size, step number, every earlier use of the stepper object, any vector space", "why_tests_cant": "the stepper reuses internal buffers; tests check a few problems", "anchors": ["include/pressio/ode/impl/ode_explicit_stepper_without_mass_matrix.hpp: doStepImpl"]}
{"id": "C11", "title": "AdamsBashforth2 uses the right-hand side of the previous step", "statement": "Stepping from step number 1 the k-th state is y_k = y_{k-1} + h(3/2 f(y_{k-1},t_{k-1}) - 1/2 f(y_{k-2},t_{k-2})) for k>=2 and forward Euler for k=1.", "quantifier": "every right-hand side and number of steps, every earlier use of the stepper", "why_tests_cant": "history dependence over any number of steps", "anchors": ["include/pressio/ode/impl/ode_explicit_stepper_without_mass_matrix.hpp: AdamsBashforth2"]}
{"id": "C12", "title": "Explicit schemes with a mass matrix solve M x = f stage by stage", "statement": "With a mass matrix and a linear solver that returns x with M(y,t)x=f(y,t), each explicit stepper equals the same scheme without mass matrix applied to the right-hand side x(y,t).", "quantifier": "every mass matrix, right-hand side, exact linear solver", "why_tests_cant": "all systems", "anchors": ["include/pressio/ode/impl/ode_explicit_stepper_with_mass_matrix.hpp"]}
{"id": "C13", "title": "Explicit schemes have their order on quadrature and on the linear test equation", "statement": "For y'=p(t): forward Euler is exact for constant p, AB2 for linear, SSPRK3 for quadratic, RK4 for cubic p. For y'=a*y the one-step growth factor is the Taylor polynomial of exp(a h) of degree 1,3,4 for FE,SSPRK3,RK4.", "quantifier": "every polynomial, step size, start in any field of characteristic 0", "why_tests_cant": "all polynomials", "anchors": ["include/pressio/ode/impl/ode_explicit_stepper_without_mass_matrix.hpp"]}
{"id": "C14", "title": "Implicit schemes: the residual is zero exactly at the scheme's solution", "statement": "The residual the stepper presents to the solver for BDF1, BDF2 (first step BDF1) and CrankNicolson, with or without mass matrix where supported, vanishes at y iff y satisfies the scheme's defining equation with the true previous states.", "quantifier": "every right-hand side, mass matrix, state, step size", "why_tests_cant": "all systems", "anchors": ["include/pressio/ode/impl/ode_implicit_discrete_residual.hpp", "include/pressio/ode/impl/ode_implicit_policy_residual_jacobian_without_mass_matrix.hpp", "include/pressio/ode/impl/ode_implicit_policy_residual_jacobian_with_mass_matrix.hpp"]}
{"id": "C15", "title": "Implicit schemes: the Jacobian is the derivative of the residual", "statement": "The Jacobian presented to the solver is the derivative of the presented residual with respect to the unknown state (exactly the difference quotient for an affine right-hand side, constant mass matrix).", "quantifier": "every affine right-hand side, scheme, step size, direction", "why_tests_cant": "all systems and directions", "anchors": ["include/pressio/ode/impl/ode_implicit_discrete_jacobian.hpp"]}
{"id": "C16", "title": "Implicit steppers see the right history after any pattern of failures", "statement": "For BDF1, BDF2 and the fully discrete stepper with 1, 2 or 3 auxiliary states: in a run of steps numbered 1,2,... where each step may fail any number of times before succeeding and is then retried (possibly with other step sizes), every residual evaluation sees as y_n, y_{n-1}, y_{n-2} exactly the last accepted states.", "quantifier": "every nonlinear solver behaviour (any finite adaptive sequence of residual evaluations, success or failure), every failure pattern, every number of steps", "why_tests_cant": "all histories", "anchors": ["include/pressio/ode/impl/ode_implicit_stepper_standard.hpp: doStepImpl", "include/pressio/ode/impl/ode_implicit_stepper_arbitrary.hpp: updateAuxiliaryStorage, rollBackStates"]}
{"id": "C17", "title": "Strong guarantee: a failed implicit step leaves the state as it was", "statement": "If the nonlinear solver throws NonlinearSolveFailure, the stepper throws TimeStepFailure and the caller's state equals the state passed in.", "quantifier": "every solver behaviour, scheme, step number, state", "why_tests_cant": "all solver behaviours", "anchors": ["include/pressio/ode/impl/ode_implicit_stepper_standard.hpp", "include/pressio/ode/impl/ode_implicit_stepper_arbitrary.hpp"]}
{"id": "C18", "title": "State after other exceptions", "statement": "If the nonlinear solver throws any exception the caller's state equals the state passed in.", "quantifier": "every solver behaviour", "why_tests_cant": "all solver behaviours", "anchors": ["include/pressio/ode/impl/ode_implicit_stepper_standard.hpp: catch clauses"]}
{"id": "C19", "title": "CrankNicolson uses the right-hand side of the step's own start state", "statement": "Every residual evaluated in a CrankNicolson step uses f(y_n,t_n) of that step's start state, for every sequence of steps and runs made with the stepper object.", "quantifier": "every sequence of runs", "why_tests_cant": "histories over several runs with the same object", "anchors": ["include/pressio/ode/impl/ode_implicit_policy_residual_jacobian_without_mass_matrix.hpp: compute_impl_cn, stepTracker_"]}
{"id": "C20", "title": "A pre-step guess only affects the initial guess of the solver", "statement": "With advance_n_steps_with_pre_step_guesser and an implicit stepper the equation solved at each step is the scheme's equation for the previously accepted state, whatever the guesser writes.", "quantifier": "every guesser", "why_tests_cant": "all guessers", "anchors": ["include/pressio/ode/impl/ode_advance_n_steps.hpp", "include/pressio/ode/impl/ode_implicit_stepper_standard.hpp"]}
{"id": "C21", "title": "Nonlinear solvers: iteration bound and exit condition", "statement": "Newton, Gauss-Newton and Levenberg-Marquardt perform at most maxIterations iterations. If they stop before, the stopping metric at the returned state was below tolerance (or the line search gave up), and no earlier iteration met it; the returned state is the one at which the metric was measured, i.e. the last computed correction is not applied.", "quantifier": "every system, linear solver, tolerance, maximum, stop criterion", "why_tests_cant": "all systems", "anchors": ["include/pressio/solvers_nonlinear/impl/nonlinear_least_squares.hpp: nonlin_ls_solving_loop_impl", "include/pressio/solvers_nonlinear/impl/root_finder.cpp: root_solving_loop_impl"]}
{"id": "C22", "title": "Every stop criterion is usable with every solver", "statement": "Every Stop enumerator set on a Newton, Gauss-Newton or Levenberg-Marquardt solver leads to a run that ends by convergence or by the iteration bound.", "quantifier": "every Stop value and solver", "why_tests_cant": "combinations not covered by tests", "anchors": ["include/pressio/solvers_nonlinear/impl/root_finder.cpp: mustStop", "include/pressio/solvers_nonlinear/impl/diagnostics.hpp: DiagnosticsContainer::operator[]", "include/pressio/solvers_nonlinear/solvers_create_newton.hpp"]}
{"id": "C23", "title": "Relative metrics are measured against the first iteration", "statement": "The relative diagnostic reported at iteration k of a solve equals the absolute one divided by the absolute one of iteration 1 of the same solve, also when the solver object is reused.", "quantifier": "every sequence of norms, every number of solves", "why_tests_cant": "reuse histories", "anchors": ["include/pressio/solvers_nonlinear/impl/diagnostics.hpp: InternalDiagnosticDataWithAbsoluteRelativeTracking::update"]}
{"id": "C24", "title": "Backtracking line search ends and never increases the objective", "statement": "The backtracking update evaluates the objective at most 10 times, at step lengths 1,1/2,...,1/512, accepts the first that satisfies its test and otherwise leaves the state unchanged and ends the solve. With the default reduction factor the objective of the state never increases during a solve.", "quantifier": "every objective function, correction, state", "why_tests_cant": "all objectives", "anchors": ["include/pressio/solvers_nonlinear/impl/updaters.hpp: BacktrackStrictlyDecreasingObjectiveUpdater"]}
{"id": "C25", "title": "BacktrackStrictlyDecreasingObjective accepts only strictly decreasing steps", "statement": "A step accepted by the BacktrackStrictlyDecreasingObjective update makes the objective strictly smaller.", "quantifier": "every objective function", "why_tests_cant": "all objectives", "anchors": ["include/pressio/solvers_nonlinear/impl/updaters.hpp: BacktrackStrictlyDecreasingObjectiveUpdater"]}
{"id": "C26", "title": "Armijo update enforces the Armijo condition", "statement": "Selecting Update::Armijo makes each accepted step satisfy f(x+a p) <= f(x) + 1e-4 a g.p.", "quantifier": "every problem", "why_tests_cant": "all problems", "anchors": ["include/pressio/solvers_nonlinear/impl/updaters.hpp: ArmijoUpdater", "include/pressio/solvers_nonlinear/impl/nonlinear_least_squares.hpp: solve_with_line_search_impl"]}
{"id": "C27", "title": "Levenberg-Marquardt: accepted steps decrease the objective, rejected ones change nothing", "statement": "With a positive definite damped normal matrix and exact linear solves, an LM update changes the state iff the objective at the trial point is strictly smaller; otherwise the state is unchanged.", "quantifier": "every residual, Jacobian, state, damping", "why_tests_cant": "all problems", "anchors": ["include/pressio/solvers_nonlinear/impl/updaters.hpp: lm_gain_factor, LMSchedule1Updater, LMSchedule2Updater"]}
{"id": "C28", "title": "Levenberg-Marquardt damping stays in range", "statement": "Schedule 1 keeps the damping and its growth factor positive; schedule 2 keeps the damping in [1e-7,1e7]; both start each solve from damping 1.", "quantifier": "every sequence of gain factors", "why_tests_cant": "all sequences", "anchors": ["include/pressio/solvers_nonlinear/impl/updaters.hpp", "include/pressio/solvers_nonlinear/impl/functions.hpp: reset_for_new_solve_loop"]}
{"id": "C29", "title": "Levenberg-Marquardt gain ratio is actual over predicted reduction", "statement": "The gain ratio used to accept steps and adapt the damping is (f(x+c)-f(x)) divided by the change predicted by the quadratic model of the objective.", "quantifier": "every problem", "why_tests_cant": "all problems", "anchors": ["include/pressio/solvers_nonlinear/impl/updaters.hpp: lm_gain_factor"]}
{"id": "C30", "title": "Gauss-Newton correction solves the linear least-squares problem", "statement": "With exact linear solves the Gauss-Newton correction c satisfies ||J c + r|| <= ||J d + r|| for all d (weighted norm for the weighted variants); it is a descent direction unless the gradient is zero; the QR variant gives the same correction as the normal-equation variant for full-rank J; weighted with the identity equals unweighted; compact weighting with W equals weighting with W^T W.", "quantifier": "every J, r, W of any size", "why_tests_cant": "all matrices", "anchors": ["include/pressio/solvers_nonlinear/impl/functions.hpp: compute_nonlinearls_operators_and_objective, compute_correction"]}
{"id": "C31", "title": "Newton and Gauss-Newton solve affine problems in one correction", "statement": "For an affine residual with invertible Jacobian (full column rank for Gauss-Newton) and exact linear solves the state after one update is the solution (least-squares minimiser), the next correction is zero and the solver stops there.", "quantifier": "every affine system of any size, every initial guess", "why_tests_cant": "all systems", "anchors": ["include/pressio/solvers_nonlinear/impl/root_finder.cpp", "include/pressio/solvers_nonlinear/impl/nonlinear_least_squares.hpp"]}
{"id": "C32", "title": "Diagnostics requested by the user are reported for the right quantity", "statement": "For every list of distinct public diagnostics, looking up a diagnostic or stop criterion returns the internal tracker of the quantity it names, and asking for one that is not tracked is reported, never silently another quantity.", "quantifier": "every list of public diagnostics", "why_tests_cant": "all lists and duplicates", "anchors": ["include/pressio/solvers_nonlinear/impl/diagnostics.hpp: DiagnosticsContainer"]}
{"id": "C33", "title": "Trial subspace maps reduced states affinely and is immutable", "statement": "mapFromReducedState gives phi*x (+ translation iff affine), also after the caller modifies the matrix and vector passed as lvalues to the constructor, and the constructor does not modify them; copies behave identically.", "quantifier": "every basis, translation, reduced state, every later modification by the caller, value- and view-semantics containers", "why_tests_cant": "aliasing histories", "anchors": ["include/pressio/rom/impl/linear_trial_column_subspace.hpp", "include/pressio/rom/linear_subspace.hpp"]}
{"id": "C34", "title": "LSPG and fully discrete Galerkin reconstruct the FOM history of the true reduced history", "statement": "In a run of steps 1,2,... with any failures and retries, each evaluation presents to the FOM as y_{n+1},y_n,y_{n-1} the reconstructions of the reduced prediction and of the last accepted reduced states.", "quantifier": "every behaviour of a solver that evaluates the residual at least once per step, every failure pattern, number of steps", "why_tests_cant": "all histories", "anchors": ["include/pressio/rom/impl/lspg_unsteady_fom_states_manager.hpp", "include/pressio/rom/impl/lspg_unsteady_rj_policy_default.hpp", "include/pressio/rom/impl/lspg_unsteady_fully_discrete_system.hpp", "include/pressio/rom/impl/galerkin_unsteady_system_fully_discrete_fom.hpp"]}
{"id": "C35", "title": "LSPG problem object can be reused for a second run", "statement": "The previous property also holds when the same problem object is used for several runs that each start at step 1.", "quantifier": "every sequence of runs", "why_tests_cant": "histories over several runs", "anchors": ["include/pressio/rom/impl/lspg_unsteady_rj_policy_default.hpp: stepTracker_", "include/pressio/rom/impl/lspg_unsteady_fully_discrete_system.hpp: stepTracker_"]}
{"id": "C36", "title": "FOM states manager never accesses outside its storage", "statement": "Every accessor and reconstruct function of the FOM states manager touches only existing entries whenever its own precondition (number of stored states) holds.", "quantifier": "every number of stored states and tag", "why_tests_cant": "the n-2 entry is not exercised by tests", "anchors": ["include/pressio/rom/impl/lspg_unsteady_fom_states_manager.hpp"]}
{"id": "C37", "title": "Galerkin operators are the projection of the FOM operators", "statement": "Reduced residual/rhs is phi^T f(phi x + shift), reduced Jacobian is phi^T (df/dy phi) and is the derivative of the reduced residual; reduced mass matrix is phi^T M phi; hyper-reduced and masked variants apply the operators in the documented order; with phi = identity the reduced problem is the FOM problem.", "quantifier": "every FOM, basis, state, time", "why_tests_cant": "all FOMs", "anchors": ["include/pressio/rom/impl/galerkin_steady_system_default.hpp", "include/pressio/rom/impl/galerkin_unsteady_system_default_rhs_and_jacobian.hpp", "include/pressio/rom/impl/galerkin_unsteady_system_default_rhs_with_mass_matrix.hpp", "include/pressio/rom/impl/galerkin_unsteady_system_masked_rhs_and_jacobian.hpp"]}
{"id": "C38", "title": "LSPG residual and Jacobian", "statement": "The LSPG residual is the BDF residual of the FOM at the reconstructed states, its Jacobian phi + c*dt*J phi is the derivative of that residual with respect to the reduced state; hyper-reduced equals the default one restricted to the sample mesh; masked is the mask of the default one.", "quantifier": "every FOM with affine rhs, basis, state", "why_tests_cant": "all FOMs", "anchors": ["include/pressio/rom/impl/lspg_unsteady_rj_policy_default.hpp", "include/pressio/rom/impl/lspg_unsteady_rj_policy_hypred.hpp", "include/pressio/rom/impl/lspg_unsteady_mask_decorator.hpp"]}
{"id": "C39", "title": "Linear ROM operators commute with the FOM operator", "statement": "For a FOM operator apply(v)=A v + b, create_reduced_linear_operator returns (A_r,s_r,b_r) with A_r x + s_r + b_r = L^T apply(R x + shift) for all x; create_reduced_matrix_operator does so for apply(v)=A v.", "quantifier": "every A,b,L,R,shift,x", "why_tests_cant": "all sizes and values", "anchors": ["include/pressio/rom/linear_rom.hpp: RomLinearThingy"]}
{"id": "C40", "title": "Modified Gram-Schmidt gives a QR factorisation", "statement": "For a matrix with linearly independent columns the MGS factorisation yields Q with orthonormal columns and upper triangular R with positive diagonal and Q R equal to the input.", "quantifier": "every number of rows and columns, every full-rank matrix over the reals", "why_tests_cant": "all sizes", "anchors": ["include/pressio/solvers_nonlinear/impl/qr/qr_tpetra_impl.hpp: ModGramSchmidtMVTpetra"]}
{"id": "C41", "title": "Scheme selection", "statement": "Creating a stepper or problem for a scheme outside its documented set throws; for a scheme inside it the created object performs steps of that scheme.", "quantifier": "every StepScheme value and factory", "why_tests_cant": "combinations not covered", "anchors": ["include/pressio/ode/impl/ode_explicit_create_impl.hpp", "include/pressio/ode/impl/ode_implicit_create_impl.hpp", "include/pressio/rom/impl/lspg_helpers.hpp", "include/pressio/rom/impl/galerkin_helpers.hpp", "include/pressio/ode/impl/ode_implicit_policy_residual_jacobian_with_mass_matrix.hpp"]}
{"id": "C42", "title": "LSPG reconstructor writes one residual per stored step", "statement": "Given m stored (time, reduced state) rows the reconstructor writes m-1 residual/Jacobian pairs, the i-th being the BDF1 residual between rows i-1 and i with dt the difference of the times.", "quantifier": "every number and content of rows", "why_tests_cant": "all inputs, malformed ones included", "anchors": ["include/pressio/rom/impl/lspg_unsteady_reconstructor.hpp"]}
{"id": "C43", "title": "A failed explicit step leaves the caller's state alone", "statement": "If the right-hand side, the rhs observer or the linear solver throws during an explicit step, the step call throws exactly that, the caller's state is unchanged, and the stepper object stays usable; the stepper itself never throws and never accesses a buffer out of bounds.", "quantifier": "every scheme, every user code and every point of failure, with and without mass matrix", "why_tests_cant": "failure can happen in every stage of every scheme after any history", "anchors": ["include/pressio/ode/impl/ode_explicit_stepper_without_mass_matrix.hpp", "include/pressio/ode/impl/ode_explicit_stepper_with_mass_matrix.hpp"]}
{"id": "C44", "title": "A stepper created from a temporary system uses buffers made by that system", "statement": "create_explicit_stepper, and create_implicit_stepper for a fully discrete system, give a stepper whose internal right-hand side and state buffers are those the given system creates, also when the system is passed as a temporary.", "quantifier": "every scheme, every system type, lvalue or temporary", "why_tests_cant": "depends on what moving does to the user's type", "anchors": ["include/pressio/ode/impl/ode_explicit_stepper_without_mass_matrix.hpp: constructors", "include/pressio/ode/impl/ode_implicit_stepper_arbitrary.hpp: constructor", "include/pressio/solvers_nonlinear/impl/instance_or_reference_wrapper.hpp"]}
{"id": "C45", "title": "An explicit step can be retried after a failure", "statement": "If an explicit step fails and is called again with the same arguments, and the user code now succeeds, the result is the one a call without the failure would have given.", "quantifier": "every scheme, user code, point of failure", "why_tests_cant": "all failure points and histories", "anchors": ["include/pressio/ode/impl/ode_explicit_stepper_without_mass_matrix.hpp", "include/pressio/ode/impl/ode_advance_to_target_time.hpp"]}
{"id": "C46", "title": "A failing right-hand side makes an implicit step fail cleanly", "statement": "If the user's right-hand side reports a velocity failure during an implicit step and the nonlinear solver passes residual failures on as it should, the step call throws TimeStepFailure and the caller's state equals the one passed in, so that recovery can retry.", "quantifier": "every implicit scheme, with and without mass matrix, every user code, every evaluation that fails", "why_tests_cant": "a failure can hit any evaluation of any step", "anchors": ["include/pressio/ode/impl/ode_implicit_policy_residual_jacobian_without_mass_matrix.hpp", "include/pressio/ode/impl/ode_implicit_policy_residual_jacobian_with_mass_matrix.hpp", "include/pressio/ode/impl/ode_implicit_stepper_standard.hpp"]}
{"id": "C47", "title": "Implicit schemes integrate a constant slope exactly, whatever the step sizes", "statement": "For y' = c every implicit scheme yields y0 + (t - t0) c at every accepted time t, also when the step size changes from step to step (as step size policies and step recovery do).", "quantifier": "every scheme, slope, sequence of step sizes", "why_tests_cant": "all sequences of step sizes", "anchors": ["include/pressio/ode/impl/ode_implicit_discrete_residual.hpp", "include/pressio/ode/ode_constants.hpp", "include/pressio/ode/impl/ode_advance_to_target_time.hpp"]}
{"id": "C48", "title": "A completed implicit integration reports exactly a sequence of accepted steps", "statement": "When advance_n_steps or an advance_to_target function returns normally with an implicit stepper and a solver that only returns normally with a residual it accepts, the states reported to the observer form a sequence starting with the initial condition in which every state's residual, taken with the scheme's formula, the states reported before it and the size of its own step, is one the solver accepts; rejected attempts leave no trace.", "quantifier": "every right-hand side, mass matrix, scheme, solver behaviour, step size policy, failure pattern, number of steps", "why_tests_cant": "all failure patterns and lengths", "anchors": ["include/pressio/ode/impl/ode_advance_n_steps.hpp", "include/pressio/ode/impl/ode_advance_to_target_time.hpp", "include/pressio/ode/impl/ode_implicit_stepper_standard.hpp"]}
{"id": "C49", "title": "A root finder that did not converge says so", "statement": "A solve that returns without having met its stop criterion leaves a record from which the caller can tell: the root finder writes the termination file exactly when the limit was reached or the line search gave up; the least-squares solvers do the same.", "quantifier": "every system, start, settings, history of the solver object", "why_tests_cant": "all outcomes of all runs", "anchors": ["include/pressio/solvers_nonlinear/impl/root_finder.cpp", "include/pressio/solvers_nonlinear/impl/nonlinear_least_squares.hpp"]}
{"id": "C50", "title": "A solve started at a root stops at once", "statement": "If the residual at the initial guess is zero, every stop criterion ends the solve in its first iteration with the state unchanged.", "quantifier": "every system, stop criterion and positive tolerance", "why_tests_cant": "depends on the arithmetic of 0/0", "anchors": ["include/pressio/solvers_nonlinear/impl/diagnostics.hpp", "include/pressio/solvers_nonlinear/impl/root_finder.cpp"]}
{"id": "C51", "title": "An implicit step is accepted only if its nonlinear solve converged", "statement": "When an implicit step returns normally, the stop criterion of its nonlinear solve was met at the accepted state.", "quantifier": "every right-hand side, scheme and solver settings", "why_tests_cant": "all right-hand sides", "anchors": ["include/pressio/ode/impl/ode_implicit_stepper_standard.hpp", "include/pressio/solvers_nonlinear/impl/root_finder.cpp"]}
{"id": "C52", "title": "Failures of the residual always become a nonlinear solve failure", "statement": "If the system throws a residual failure at any evaluation during a solve, solve throws NonlinearSolveFailure, so that a stepper rolls back.", "quantifier": "every solver, update, system, point of failure", "why_tests_cant": "a failure can hit any evaluation", "anchors": ["include/pressio/solvers_nonlinear/impl/root_finder.cpp", "include/pressio/solvers_nonlinear/impl/nonlinear_least_squares.hpp", "include/pressio/solvers_nonlinear/impl/updaters.hpp"]}
{"id": "C53", "title": "Implicit steps with Newton's method are exact for linear problems", "statement": "For y' = A(t) y + b(t), also with a mass matrix M(t), a BDF1 or BDF2 step taken with the library's Newton solver and an exact linear solver returns the exact solution of the scheme's equation whenever the step matrix is invertible.", "quantifier": "every dimension, A, b, M, time, step size, history", "why_tests_cant": "all linear problems", "anchors": ["include/pressio/ode/impl/ode_implicit_stepper_standard.hpp", "include/pressio/solvers_nonlinear/impl/root_finder.cpp"]}
{"id": "C54", "title": "Matrix-free Newton takes the same iterates as Newton", "statement": "A matrix-free Newton solve, given a linear solver that computes the same corrections from the action of the Jacobian, passes through the same states, reports the same diagnostics and ends the same way as the Newton solve with the matrix; the operator handed to the linear solver is the Jacobian at the current state.", "quantifier": "every system, start, settings", "why_tests_cant": "all systems", "anchors": ["include/pressio/solvers_nonlinear/impl/root_finder.cpp", "include/pressio/solvers_nonlinear/solvers_create_newton.hpp"]}
{"id": "C55", "title": "Every iteration limit is safe", "statement": "A solve with any int as maxIterations has no undefined behaviour.", "quantifier": "every int", "why_tests_cant": "needs 2^31 iterations", "anchors": ["include/pressio/solvers_nonlinear/impl/root_finder.cpp", "include/pressio/solvers_nonlinear/impl/nonlinear_least_squares.hpp"]}
{"id": "C56", "title": "An implicit step moves a state whose right-hand side is not zero", "statement": "If the exact solution of the step's equation differs from the current state, a step that returns normally with the library's Newton solver changes the state.", "quantifier": "every right-hand side and settings", "why_tests_cant": "all settings", "anchors": ["include/pressio/solvers_nonlinear/impl/root_finder.cpp", "include/pressio/ode/impl/ode_implicit_stepper_standard.hpp"]}
{"id": "C57", "title": "Computing a QR factorisation leaves the matrix alone", "statement": "computeThin takes its matrix by const reference and the matrix is the same after the call.", "quantifier": "every matrix", "why_tests_cant": "all matrices", "anchors": ["include/pressio/solvers_nonlinear/impl/qr/qr_tpetra_impl.hpp: ModGramSchmidtMVTpetra"]}
{"id": "C58", "title": "A QR object can be reused for matrices of any size", "statement": "A second computeThin on the same QR object gives the factorisation of the second matrix, whatever its number of columns.", "quantifier": "every pair of matrices", "why_tests_cant": "all pairs of sizes", "anchors": ["include/pressio/solvers_nonlinear/impl/qr/qr_tpetra_impl.hpp: ModGramSchmidtMVTpetra"]}
{"id": "C59", "title": "Accessors of a trial subspace", "statement": "basis() of a subspace created by create_trial_column_subspace returns a usable reference to its basis, affine or not; dimension(), translationVector() and the created states match the arguments of the constructor.", "quantifier": "every subspace", "why_tests_cant": "affine and not", "anchors": ["include/pressio/rom/impl/linear_trial_column_subspace.hpp: basis, basisOfTranslatedSpace"]}
{"id": "C60", "title": "Velocity failure in an LSPG problem makes the step fail cleanly", "statement": "If the FOM throws VelocityFailureCannotEvaluate while an unsteady LSPG problem takes a step with a solver that forwards failures, the step ends with TimeStepFailure and the reduced state is as before, as with the ODE steppers.", "quantifier": "every FOM, call at which it fails, scheme", "why_tests_cant": "The failure can come at any evaluation of any step.", "anchors": ["include/pressio/rom/impl/lspg_unsteady_rj_policy_default.hpp: compute_impl_bdf", "include/pressio/rom/impl/lspg_unsteady_rj_policy_hypred.hpp: compute_impl_bdf"]}
{"id": "C61", "title": "LSPG evaluates the FOM Jacobian only on request", "statement": "A residual evaluation of an unsteady LSPG problem without Jacobian neither calls the FOM's applyJacobian nor depends on it.", "quantifier": "every kind of LSPG problem (default, hyper-reduced, masked, scaled), scheme, state", "why_tests_cant": "A test sees the value of the residual, not the calls that were made; cost and failures of the unwanted call show only with a FOM whose Jacobian fails.", "anchors": ["include/pressio/rom/impl/lspg_unsteady_mask_decorator.hpp: operator()", "include/pressio/rom/impl/lspg_unsteady_rj_policy_default.hpp"]}
{"id": "C62", "title": "Copied and moved problem objects stay usable", "statement": "A problem object obtained from another one by copy or move construction can be stepped for as long as it exists, whatever happens to the object it came from.", "quantifier": "all sequences of creations, copies, moves, destructions and steps of unsteady problem objects", "why_tests_cant": "Whether a dangling reference is noticed depends on what later occupies the memory; tests create one problem and never copy it.", "anchors": ["include/pressio/rom/impl/galerkin_unsteady_explicit_problem.hpp: GalerkinUnsteadyExplicitProblem, GalerkinUnsteadyWithMassMatrixExplicitProblem", "include/pressio/rom/impl/lspg_unsteady_problem.hpp: LspgUnsteadyProblem", "include/pressio/solvers_nonlinear/impl/instance_or_reference_wrapper.hpp: InstanceOrReferenceWrapper"]}
{"id": "C63", "title": "A Galerkin step makes the FOM's residual orthogonal to the trial space", "statement": "The state accepted by an implicit Galerkin problem makes the FOM's time-discrete residual at the reconstructed states orthogonal to the basis: the residual given to the solver is phi^T times it.", "quantifier": "all FOMs, affine trial subspaces, BDF1 and BDF2, all histories and step sizes", "why_tests_cant": "Tests use orthonormal bases or compare with numbers computed by the same formula.", "anchors": ["include/pressio/rom/impl/galerkin_unsteady_system_default_rhs_and_jacobian.hpp", "include/pressio/rom/impl/galerkin_unsteady_system_default_rhs_and_jacobian_and_mm.hpp", "include/pressio/ode/impl/ode_implicit_policy_residual_jacobian_without_mass_matrix.hpp"]}
{"id": "C64", "title": "Every method of a steady Galerkin problem works", "statement": "Each of the methods residual, residualAndJacobian and applyJacobian of a steady Galerkin problem returns its quantity whenever the user's operators return.", "quantifier": "default, hyper-reduced and masked steady problems; all states and operators", "why_tests_cant": "A test of the solvers calls only some of the methods; which ones depends on the solver.", "anchors": ["include/pressio/rom/impl/galerkin_steady_system_hypred.hpp: residual, applyJacobian", "include/pressio/rom/impl/galerkin_steady_system_default.hpp"]}
{"id": "C65", "title": "An exported reduced operator can be read back", "statement": "The text files written by export_ascii determine the reduced matrix and vectors: reading them yields the operator that was exported.", "quantifier": "every reduced operator", "why_tests_cant": "Tests export small round numbers, which print exactly with any precision.", "anchors": ["include/pressio/rom/linear_rom.hpp: write_matrix_to_ascii, export_ascii"]}
{"id": "C66", "title": "The reconstructor honours the scheme it is given", "statement": "The LSPG reconstructor, given a time stepping scheme, writes the residuals of that scheme or reports that it does not support it.", "quantifier": "every scheme, every file of reduced states", "why_tests_cant": "The only check is an assertion, which release builds drop; tests ask for BDF1.", "anchors": ["include/pressio/rom/impl/lspg_unsteady_reconstructor.hpp: execute_for_semi_discrete_time_impl"]}
{"id": "C67", "title": "Steady LSPG residual and Jacobian", "statement": "A steady LSPG problem returns the FOM's residual and the action of the FOM's Jacobian on the basis at the state of the trial space, masked and scaled if so created, whatever was evaluated before; without state-dependent scaling the Jacobian is the derivative of the residual; the Jacobian is computed only on request; a failure of the FOM reaches the caller.", "quantifier": "default, masked and scaled steady problems; all FOMs, maskers, scalings, reduced states and call histories", "why_tests_cant": "The problem keeps mutable buffers between calls; tests evaluate at one or two states and compare with precomputed numbers.", "anchors": ["include/pressio/rom/lspg_steady.hpp: create_steady_problem", "include/pressio/rom/impl/lspg_steady_system_default.hpp: residualAndJacobian", "include/pressio/rom/impl/lspg_steady_system_masked.hpp: residualAndJacobian"]}
{"id": "C68", "title": "Steady problems of an affine FOM are solved", "statement": "For an affine FOM, solving the steady LSPG problem with Gauss-Newton returns the state of the trial space with the smallest (masked, scaled) residual, and solving the steady Galerkin problem with Newton-Raphson returns a state whose projected residual is zero, unless the initial guess already met the stopping criterion; either needs one correction.", "quantifier": "all affine FOMs, affine trial spaces of any dimension, maskers and hyper-reduction operators for which the reduced matrix has full rank; all initial guesses and tolerances", "why_tests_cant": "Tests compare the solution of one problem with a stored one; optimality over the whole trial space cannot be tested.", "anchors": ["include/pressio/rom/lspg_steady.hpp: create_steady_problem", "include/pressio/rom/galerkin_steady.hpp: create_steady_problem", "include/pressio/solvers_nonlinear/solvers_create_gauss_newton.hpp: create_gauss_newton_solver", "include/pressio/solvers_nonlinear/solvers_create_newton.hpp: create_newton_solver"]}
{"id": "C69", "title": "The Trilinos hyper-reduction updater combines entries with the same global index", "statement": "Given a sample mesh operand and a stencil mesh operand, every entry of the first becomes alpha times itself plus beta times the entry of the second with the same global index, other data stay as they are, and an index that the stencil mesh lacks is reported.", "quantifier": "all row maps, in any order, vectors and multivectors of any size, all alpha and beta", "why_tests_cant": "Tests use one pair of maps; a missing index is noticed by an assertion only, which release builds drop.", "anchors": ["include/pressio/rom/rom_lspg_unsteady_hypred_updater_trilinos.hpp: updateSampleMeshOperandWithStencilMeshOne"]}
{"id": "C70", "title": "A direct linear solver object can be used again for any system", "statement": "solve(A,b,y) of a direct solver object returns the solution of A y = b for every non singular (for the Cholesky based tags: symmetric positive definite) A, whatever systems, of whatever size, the object solved before.", "quantifier": "getrs, geqrf, potrsL and potrsU for Kokkos matrices; all sizes, all sequences of calls, with and without assertions, every LAPACK that behaves as documented", "why_tests_cant": "The objects keep a copy of the matrix and a workspace between calls; tests use one size per object.", "anchors": ["include/pressio/solvers_linear/impl/solvers_linear_kokkos_direct_geqrf_impl.hpp: solve, solveAllowMatOverwrite", "include/pressio/solvers_linear/impl/solvers_linear_kokkos_direct_getrs_impl.hpp: solve", "include/pressio/solvers_linear/impl/solvers_linear_kokkos_direct_potrs_upper_impl.hpp: solve", "include/pressio/solvers_linear/impl/solvers_linear_kokkos_direct_potrs_lower_impl.hpp: solve"]}
{"id": "C71", "title": "A linear system without solution is reported", "statement": "A direct solver object asked to solve a system that has no solution does not return normally.", "quantifier": "Kokkos based direct solvers, all singular matrices and right hand sides outside their range", "why_tests_cant": "The return codes of LAPACK are only looked at by assertions; tests solve regular systems.", "anchors": ["include/pressio/solvers_linear/impl/solvers_linear_kokkos_direct_getrs_impl.hpp: solveAllowMatOverwrite", "include/pressio/solvers_linear/impl/solvers_linear_kokkos_direct_geqrf_impl.hpp: solveAllowMatOverwrite", "include/pressio/solvers_linear/impl/solvers_linear_kokkos_direct_potrs_upper_impl.hpp: solveAllowMatOverwrite"]}
{"id": "C72", "title": "A linear solver answers for the matrix last given to it", "statement": "solve(b,y) answers for the matrix last passed to resetLinearSystem, as it was then; iterative solvers stay within the iteration limit last set, whether set before or after the matrix, and report how many iterations they made. The matrix-free solver answers for the operator last passed, as it is when solve is called.", "quantifier": "all sequences of resetLinearSystem, solve, setMaxIterations and assignments to the caller's matrices; Eigen based direct, iterative and matrix-free solvers", "why_tests_cant": "Whether the native solver keeps a copy or a reference shows only if the caller changes the matrix between the two calls.", "anchors": ["include/pressio/solvers_linear/impl/solvers_linear_eigen_direct_impl.hpp: resetLinearSystem, solve", "include/pressio/solvers_linear/impl/solvers_linear_eigen_iterative_impl.hpp: resetLinearSystem, solve", "include/pressio/solvers_linear/impl/solvers_linear_iterative_base.hpp: setMaxIterations", "include/pressio/solvers_linear/impl/solvers_linear_eigen_iterative_matrix_free_impl.hpp: EigenIterativeMatrixFree"]}
{"id": "C73", "title": "Stencil containers keep one independent entry per time instance", "statement": "A stencil container has one entry for each of its latest time instances; new entries are zero; assigning to one changes neither another nor any object of the caller, and a copy of a container is independent of the original; a time instance it does not have is refused; size() is the number of entries.", "quantifier": "static and dynamic containers ending at n or n+1, all sizes, element types with value and with view semantics", "why_tests_cant": "Sharing shows only with view types and only if both objects are used afterwards.", "anchors": ["include/pressio/ode/ode_stencil_containers.hpp", "include/pressio/ode/impl/ode_stencil_data_container_static.hpp: StencilDataContainerStaticImpl", "include/pressio/ode/impl/ode_stencil_data_container_dynamic.hpp: StencilDataContainerDynImpl"]}
{"id": "C74", "title": "A nonlinear solver object can be used again", "statement": "What solve(system, state) does depends only on the settings, the system and the state: an object that has made any number of solves, of any systems, some of which failed, returns the same state and outcome, makes the same evaluations and reports the same as a new object with the same settings.", "quantifier": "Newton, Gauss-Newton (normal equations, QR, weighted) and Levenberg-Marquardt objects; all histories of solves, settings, systems; linear solvers that do not depend on their history", "why_tests_cant": "Left-over buffers, damping or reference norms show only for particular pairs of consecutive solves.", "anchors": ["include/pressio/solvers_nonlinear/impl/nonlinear_least_squares.hpp: NonLinLeastSquares::solve", "include/pressio/solvers_nonlinear/impl/root_finder.cpp: RootFinder::solve", "include/pressio/solvers_nonlinear/impl/functions.hpp: reset_for_new_solve_loop", "include/pressio/solvers_nonlinear/impl/registries.hpp"]}
{"id": "C75", "title": "A Galerkin ROM whose trial space contains what the FOM does reproduces the FOM", "statement": "If the FOM's velocity at every point of the trial space lies in the span of the basis, and the basis is orthonormal (or the hyper-reduction operator is a left inverse of it, or the problem has a mass matrix), then after any number of steps the reconstructed ROM state is the state of the FOM stepped by the same scheme; for implicit schemes a reduced state solves the reduced equations if and only if its reconstruction solves the FOM's.", "quantifier": "default, hyper-reduced and masked Galerkin problems, all explicit and implicit schemes, all affine trial spaces, all FOMs with that property, any number and sizes of steps", "why_tests_cant": "The standard sanity check of a ROM, but a test makes it for one FOM, one basis and one number of steps, with a tolerance.", "anchors": ["include/pressio/rom/galerkin_unsteady_explicit.hpp: create_unsteady_explicit_problem", "include/pressio/rom/galerkin_unsteady_implicit.hpp: create_unsteady_implicit_problem", "include/pressio/rom/impl/galerkin_unsteady_system_default_rhs_only.hpp: rhs", "include/pressio/rom/impl/galerkin_unsteady_system_default_rhs_and_jacobian.hpp: rhsAndJacobian", "include/pressio/ode/impl/ode_explicit_stepper_without_mass_matrix.hpp"]}
{"id": "C76", "title": "Errors of explicit integrations grow at most like exp(L T)", "statement": "If the right hand side is Lipschitz with constant L, then the state after any number of explicit steps differs from any sequence that obeys the scheme up to given errors by at most exp(L T) (exp(2 L T) for Adams-Bashforth) times the initial difference plus the sum of these errors, T the time elapsed. So two integrations from close initial states stay close, and if the local error along a solution is O(h^(p+1)) then advance_n_steps with n equal steps has an error O(h^p).", "quantifier": "all explicit schemes with and without mass matrix, all norms, right hand sides, step sizes and numbers of steps, stepper objects with any history; exact arithmetic", "why_tests_cant": "Convergence tests measure a slope for a few step sizes on one equation; the bound is about all of them.", "anchors": ["include/pressio/ode/impl/ode_explicit_stepper_without_mass_matrix.hpp", "include/pressio/ode/impl/ode_explicit_stepper_with_mass_matrix.hpp", "include/pressio/ode/ode_advance_n_steps.hpp: advance_n_steps"]}
{"id": "C77", "title": "Implicit integrations of dissipative equations do not amplify errors", "statement": "If solutions of the equation do not move apart ((f(y,t)-f(z,t), y-z) <= 0), then neither do implicit integrations, whatever the sizes of the steps: the difference of two completed integrations with the same times is at most the initial one (BDF1), sqrt(2) times it (BDF2), or the initial one with the first half step added (Crank-Nicolson with steps that do not grow), plus a multiple of the number of steps and of the tolerance of the nonlinear solver. The same holds for the distance to a solution, with the residuals of the solution added.", "quantifier": "BDF1, BDF2, Crank-Nicolson, constant symmetric positive definite mass matrices for the BDFs, advance_n_steps and advance_to_target_point with and without step recovery; all inner products, right hand sides, step size policies, numbers of steps, solvers and tolerances; exact arithmetic", "why_tests_cant": "Unconditional stability is about all step sizes and unbounded numbers of steps, and depends on the coefficients in the residual and on the states in the stencil being the right ones.", "anchors": ["include/pressio/ode/impl/ode_implicit_stepper_standard.hpp: doStepImpl", "include/pressio/ode/impl/ode_implicit_policy_residual_jacobian_without_mass_matrix.hpp", "include/pressio/ode/impl/ode_implicit_policy_residual_jacobian_with_mass_matrix.hpp", "include/pressio/ode/impl/ode_implicit_discrete_residual.hpp", "include/pressio/ode/ode_advance_n_steps.hpp: advance_n_steps", "include/pressio/ode/impl/ode_advance_to_target_time.hpp"]}
{"id": "C78", "title": "Galerkin ROMs are as accurate as their trial space approximates the FOM's velocities", "statement": "If del bounds what the projection loses of the FOM's velocity at states of the trial space, then after any number of explicit steps the reconstruction of the ROM's state differs from the FOM's own integration by at most exp(L T) (e0 + T del) (one-step schemes; exp(2 L T) (e0 + 2 T del) for Adams-Bashforth), e0 the initial difference, L the FOM's Lipschitz constant, T the elapsed time. For an orthonormal basis del may be the best approximation error of the trial space; for forward Euler only the states visited count. For a dissipative FOM and BDF1, BDF2 or Crank-Nicolson the error grows at most linearly in time, and only the states the ROM visits count for del; the default Galerkin ROM is itself dissipative, so that its integrations do not move apart.", "quantifier": "default, hyper-reduced and masked Galerkin ROMs, with mass matrix for the default one; all affine trial spaces, FOMs, norms, explicit schemes, steps and histories of the two steppers; BDF1, BDF2 and Crank-Nicolson with solvers of any tolerance; exact arithmetic over the reals", "why_tests_cant": "The bound must hold for all FOMs, trial spaces, step sequences and numbers of steps; a test sees one error of one run and cannot tell a wrong projection from a poor basis.", "anchors": ["include/pressio/rom/impl/galerkin_unsteady_system_default_rhs_only.hpp", "include/pressio/rom/impl/galerkin_unsteady_system_hypred_rhs_only.hpp", "include/pressio/rom/impl/galerkin_unsteady_system_masked_rhs_only.hpp", "include/pressio/rom/impl/galerkin_unsteady_system_default_rhs_with_mass_matrix.hpp", "include/pressio/rom/impl/galerkin_unsteady_system_default_rhs_and_jacobian.hpp", "include/pressio/ode/impl/ode_explicit_stepper_without_mass_matrix.hpp", "include/pressio/ode/impl/ode_implicit_stepper_standard.hpp"]}
{"id": "C79", "title": "Fully discrete ROMs evaluate the FOM's residual and Jacobian at the reconstructed states", "statement": "Whenever an evaluation for a fully discrete ROM returns, the residual is the FOM's discrete residual at the reconstruction of the current reduced state and the stored older ones (for Galerkin: its projection), the Jacobian, exactly if requested, is the FOM's Jacobian action (its projection), and it is the derivative of that residual with respect to the reduced state if the FOM's action is. A DiscreteTimeResidualFailure of the FOM reaches the solver as ResidualEvaluationFailure, any other exception as it is; Galerkin then projects nothing and leaves the solver's residual and Jacobian untouched.", "quantifier": "LSPG and Galerkin (default and hyper-reduced) fully discrete problems, all FOMs, bases, projections, states, histories and failures, Jacobian requested or not; derivatives over the reals", "why_tests_cant": "It must hold for all FOMs and all histories of calls, including failures after which a retry uses what the failed call left behind.", "anchors": ["include/pressio/rom/impl/lspg_unsteady_fully_discrete_system.hpp", "include/pressio/rom/impl/galerkin_unsteady_system_fully_discrete_fom.hpp", "include/pressio/rom/impl/galerkin_unsteady_system_hypred_fully_discrete_fom.hpp"]}
{"id": "C80", "title": "Completed LSPG and fully discrete ROM runs are chains of accepted reduced states", "statement": "If an integration of a fresh LSPG or fully discrete problem over n steps or to a target time ends normally, whatever attempts failed and were repeated, then the observer saw a chain of reduced states, beginning with the initial condition, in which each state is one the nonlinear solver accepted for the BDF1/BDF2 residual of the FOM (scaled, masked or hyper-reduced as requested), or the FOM's discrete residual (projected for Galerkin), and Jacobian, formed with exactly the reconstructions of the states before it in the chain, the first BDF2 step with BDF1; rejected attempts leave no trace in it.", "quantifier": "default, scaled, masked, hyper-reduced and scaled hyper-reduced LSPG, BDF1 and BDF2; fully discrete LSPG and Galerkin with two or three states; all FOMs, solvers which accept by a criterion on residual and Jacobian, step size policies, failures, numbers of steps", "why_tests_cant": "The chain must hold for every sequence of failures and retries and any number of steps; tests compare a few steps without failures.", "anchors": ["include/pressio/rom/impl/lspg_unsteady_problem.hpp", "include/pressio/rom/impl/lspg_unsteady_rj_policy_default.hpp", "include/pressio/rom/impl/lspg_unsteady_rj_policy_hypred.hpp", "include/pressio/rom/impl/lspg_unsteady_mask_decorator.hpp", "include/pressio/rom/impl/lspg_unsteady_scaling_decorator.hpp", "include/pressio/rom/impl/lspg_unsteady_fully_discrete_system.hpp", "include/pressio/rom/impl/galerkin_unsteady_system_fully_discrete_fom.hpp", "include/pressio/ode/impl/ode_implicit_stepper_standard.hpp", "include/pressio/ode/impl/ode_implicit_stepper_arbitrary.hpp", "include/pressio/ode/impl/ode_advance_to_target_time.hpp", "include/pressio/ode/impl/ode_advance_n_steps.hpp"]}
{"id": "C81", "title": "An LSPG run of a linear FOM with Gauss-Newton is the step-by-step best approximation, and exact on trial spaces that contain the solution", "statement": "For an LSPG problem (BDF1 or BDF2, default/unmodified residual) whose FOM is y' = A(t) y + b(t) and whose trial space is affine, integrated with the library's Gauss-Newton solver (normal equations or QR, full steps, relative stopping criteria, at least two iterations allowed, exact arithmetic and exact inner linear solves): every integration over a number of steps, and every integration to a target with step sizes bounded below, ends successfully; at every step whose matrix has independent columns the new reduced state is the unique minimiser, over all reduced states, of the norm of the fully discrete residual of that step; and if the FOM's own BDF trajectory stays in the trial space at the times of the run, the run reports exactly that trajectory.", "quantifier": "every dimension, A(t), b(t), basis and reference, initial state, start time, number of steps, step sizes, observer, reused or new solver object, both schemes", "why_tests_cant": "Minimality is over all reduced states and the chain of steps is unbounded; a test can only compare a few runs with precomputed numbers.", "anchors": ["include/pressio/rom/impl/lspg_unsteady_problem.hpp", "include/pressio/rom/impl/lspg_unsteady_rj_policy_default.hpp", "include/pressio/solvers_nonlinear/impl/nonlinear_least_squares.hpp", "include/pressio/solvers_nonlinear/impl/functions.hpp", "include/pressio/solvers_nonlinear/impl/updaters.hpp", "include/pressio/ode/impl/ode_advance_n_steps.hpp", "include/pressio/ode/impl/ode_advance_to_target_time.hpp"]}
{"id": "C82", "title": "Implicit integrations of linear equations with Newton's method follow the scheme exactly, and are unconditionally stable when the equation is dissipative", "statement": "For y' = A(t) y + b(t) (or M(t) y' = A(t) y + b(t) with BDF1/BDF2), integrated with a new BDF1, BDF2 or Crank-Nicolson stepper and the library's Newton solver (full steps, relative stopping criteria, at least two iterations allowed, exact arithmetic and exact inner linear solves): every integration over a number of steps, and every integration to a target with step sizes bounded below, returns normally; every step whose matrix I - c dt A(t+dt) (or M - c dt A) is invertible meets the equation of the scheme exactly, and a sequence that meets all of them at the times of the run is what the observer sees. If the equation is dissipative in some inner product, every step forward in time is such a step however large it is, two integrations from different states never move apart (BDF2: by at most a factor sqrt 2; Crank-Nicolson: for steps that do not grow, in the scheme's own measure), and the error against any sequence that meets the scheme's equations up to residuals is at most the initial error plus the (BDF2: six times the) sum of the residuals.", "quantifier": "every dimension, A(t), b(t), M(t), initial state, start time, number of steps, step sizes, observer, reused solver objects, all three schemes", "why_tests_cant": "The statements quantify over all step sizes and unboundedly many steps (unconditional stability) and over all equations; a test can only compare a few runs with precomputed numbers.", "anchors": ["include/pressio/ode/impl/ode_implicit_stepper_standard.hpp", "include/pressio/ode/impl/ode_implicit_discrete_residual.hpp", "include/pressio/ode/impl/ode_implicit_discrete_jacobian.hpp", "include/pressio/ode/impl/ode_implicit_policy_residual_jacobian_without_mass_matrix.hpp", "include/pressio/solvers_nonlinear/impl/root_finder.cpp", "include/pressio/solvers_nonlinear/impl/functions.hpp", "include/pressio/solvers_nonlinear/impl/updaters.hpp", "include/pressio/ode/impl/ode_advance_n_steps.hpp", "include/pressio/ode/impl/ode_advance_to_target_time.hpp"]}
{"id": "C83", "title": "Galerkin ROMs of linear FOMs integrated with Newton's method follow the reduced equation exactly, inherit the FOM's dissipativity, and have errors growing at most linearly", "statement": "For a Galerkin ROM (default, hyper-reduced or masked, affine trial space) of a FOM that is affine in its state, integrated with a new BDF1, BDF2 or Crank-Nicolson stepper and the library's Newton solver (full steps, relative stopping criteria, at least two iterations allowed, exact arithmetic and exact inner linear solves): every integration over a number of steps, and every integration to a target with step sizes bounded below, returns normally; every step whose reduced matrix is invertible meets the equation of the scheme for the reduced equation x' = P(t) f(phi x + ref, t) exactly, and a sequence that meets all of them at the times of the run is what the observer sees. If P(t) is a left inverse of the basis and the reconstructions of some reduced states obey the FOM's own scheme, the ROM reports exactly these. If the FOM is dissipative and P(t) is the adjoint of the basis, steps forward in time of any size are such steps, integrations from different states do not move apart (BDF2: by at most a factor sqrt 2), and the error against the FOM's own integration is at most the initial error plus the elapsed time times the largest velocity the basis misses at the states the ROM visits (BDF2: sqrt 2 and 6 times that).", "quantifier": "every dimension, linear FOM, basis, reference, masker, hyper-reduction operator, initial state, start time, number of steps, step sizes, observer, reused solver objects, all three schemes; exactness with Crank-Nicolson for projections that do not depend on time", "why_tests_cant": "The statements quantify over all FOMs and bases, all step sizes and unboundedly many steps; a test can only compare a few runs with precomputed numbers.", "anchors": ["include/pressio/rom/impl/galerkin_unsteady_system_default_rhs_and_jacobian.hpp", "include/pressio/rom/impl/galerkin_unsteady_system_hypred_rhs_and_jacobian.hpp", "include/pressio/rom/impl/galerkin_unsteady_system_masked_rhs_and_jacobian.hpp", "include/pressio/ode/impl/ode_implicit_stepper_standard.hpp", "include/pressio/ode/impl/ode_implicit_discrete_residual.hpp", "include/pressio/ode/impl/ode_implicit_discrete_jacobian.hpp", "include/pressio/solvers_nonlinear/impl/root_finder.cpp", "include/pressio/ode/impl/ode_advance_n_steps.hpp", "include/pressio/ode/impl/ode_advance_to_target_time.hpp"]}
{"id": "C84", "title": "A nonlinear solver works with the objects it was created with", "statement": "At every solve a nonlinear solver works with the objects it was created with: a system, linear or QR solver or weighting operator that was passed by name is used as it is at the time of the solve (and only that linear solver is changed by it), a temporary is kept by the solver and used as it was given, then as the previous solve left it. This holds whatever the caller did to other objects, other solvers or copies in between. A copied or moved-to solver gives the results the original would have given. The buffers for weighted residuals and Jacobians have the leading dimension of the system's residual, or that of a compact weighting operator.", "quantifier": "every history of creating, changing and destroying systems, linear solvers, weighting operators and solvers, of copies, moves and solves; named and temporary arguments; plain, weighted and compact weighted solvers", "why_tests_cant": "Lifetimes and sharing depend on the whole history of the program; a read through a dangling pointer or from a moved-from object usually still gives the expected result in a test.", "anchors": ["include/pressio/solvers_nonlinear/impl/registries.hpp", "include/pressio/solvers_nonlinear/impl/instance_or_reference_wrapper.hpp", "include/pressio/solvers_nonlinear/impl/root_finder.cpp", "include/pressio/solvers_nonlinear/impl/nonlinear_least_squares.hpp", "include/pressio/solvers_nonlinear/solvers_create_gauss_newton.hpp", "include/pressio/solvers_nonlinear/solvers_create_newton.hpp", "include/pressio/solvers_nonlinear/solvers_create_levenberg_marquardt.hpp"]}
{"id": "C85", "title": "The library's linear solvers serve its nonlinear solvers", "statement": "A nonlinear solver created with one of the library's direct linear solver objects (Kokkos getrs, geqrf, or potrs for the normal equations; Eigen's direct solvers), new or used before (geqrf: with a workspace large enough for the present size, see C70), obtains the exact solution of every linear system it poses that has exactly one solution: Newton's method solves every affine system with a nonsingular matrix in one correction, Gauss-Newton every linear least-squares problem of full rank, and BDF1, BDF2 and Crank-Nicolson integrations of linear equations, with or without mass matrix, follow the scheme exactly. The linear solver never stops the program and stays usable for the next solve.", "quantifier": "every number of unknowns and residuals, every matrix and right-hand side, every state a linear solver object may be in, every LAPACK meeting its documentation; every number of steps, start and step sizes", "why_tests_cant": "The linear solver is chosen by the user and its state (workspace size, copied matrix, factorisation) depends on all previous solves; tests use few sizes and mostly new objects.", "anchors": ["include/pressio/solvers_nonlinear/impl/functions.hpp", "include/pressio/solvers_linear/impl/solvers_linear_kokkos_direct_geqrf_impl.hpp", "include/pressio/solvers_linear/impl/solvers_linear_kokkos_direct_getrs_impl.hpp", "include/pressio/solvers_linear/impl/solvers_linear_kokkos_direct_potrs_lower_impl.hpp", "include/pressio/solvers_linear/impl/solvers_linear_kokkos_direct_potrs_upper_impl.hpp", "include/pressio/solvers_linear/impl/solvers_linear_eigen_direct_impl.hpp", "include/pressio/ode/impl/ode_implicit_stepper_standard.hpp"]}
{"id": "C86", "title": "Extra arguments reach every step as the caller passed them", "statement": "The variadic advance functions hand the caller's extra arguments to every call of the stepper, including retries after a rejected step, with the values the caller passed: advancing with extra arguments is the same run (states, times, observer calls, exceptions) as advancing a stepper into which those values are built, and the arguments come back unchanged.", "quantifier": "every stepper, observer, guesser and step size policy, any number of arguments, each a named object or a temporary, taken by value or by reference; every step count and target, with and without step recovery", "why_tests_cant": "The existing tests pass temporaries, but only in runs of a single step; what later steps and retries receive depends on value categories and on what the stepper does with the object.", "anchors": ["include/pressio/ode/ode_advance_n_steps_variadic.hpp", "include/pressio/ode/ode_advance_n_steps_with_guesser_variadic.hpp", "include/pressio/ode/ode_advance_to_target_point_variadic.hpp", "include/pressio/ode/ode_advance_to_target_point_with_step_recovery_variadic.hpp", "include/pressio/ode/impl/ode_advance_n_steps.hpp", "include/pressio/ode/impl/ode_advance_to_target_time.hpp"]}
{"id": "C87", "title": "A QR object answers for the last matrix it factorised", "statement": "After computeThin(A) on the QR object for dense Eigen matrices (and the Householder object for Tpetra multivectors), new or used before with matrices of any size, the object answers exactly as a new object given A: the factor Q has orthonormal columns, applyQTranspose gives Q^T r, applyRTranspose after it gives A^T r, and solve after it gives the least-squares solution of A d = r; asking does not change the object; Gauss-Newton with this object needs one correction for affine residuals.", "quantifier": "every sequence of matrices of any sizes, every full rank matrix and right-hand side, every QR factorisation that meets Eigen's documentation", "why_tests_cant": "Tests factorise one matrix per object; reuse with other sizes and the algebra of the factors for all matrices need a proof.", "anchors": ["include/pressio/solvers_nonlinear/impl/qr/qr_eigen_impl.hpp", "include/pressio/solvers_nonlinear/impl/qr/qr_tpetra_impl.hpp", "include/pressio/solvers_nonlinear/impl/qr/qr_concrete_classes.hpp", "include/pressio/solvers_nonlinear/impl/qr/qr_base_classes.hpp", "include/pressio/solvers_nonlinear/impl/qr/qr_traits.hpp"]}
{"id": "C88", "title": "Copies of a QR object are independent", "statement": "If a QR object is copied and the copy factorises another matrix, the original goes on answering for its own matrix: same Q factor, same solutions.", "quantifier": "every pair of matrices and every history of the two objects", "why_tests_cant": "No test copies a QR object; the effect depends on the sizes of the two matrices.", "anchors": ["include/pressio/solvers_nonlinear/impl/qr/qr_eigen_impl.hpp", "include/pressio/solvers_nonlinear/impl/qr/qr_tpetra_impl.hpp", "include/pressio/solvers_nonlinear/impl/qr/qr_concrete_classes.hpp"]}
{"id": "C89", "title": "Systems whose sizes do not fit are not solved silently", "statement": "solve(A, b, y) of a direct linear solver object for Kokkos matrices does not return normally if A is not square or empty or if b or y has another length than A: the program ends or an exception is thrown, whatever systems the object solved before.", "quantifier": "every matrix and pair of vectors, every earlier use of the object, every LAPACK implementation, builds with and without assertions", "why_tests_cant": "whether a call with wrong sizes is noticed depends on the build type, on the LAPACK implementation and on which of the sizes disagree; a test fixes all three", "anchors": ["include/pressio/solvers_linear/impl/solvers_linear_kokkos_direct_getrs_impl.hpp: solveAllowMatOverwrite", "include/pressio/solvers_linear/impl/solvers_linear_kokkos_direct_potrs_upper_impl.hpp: solveAllowMatOverwrite", "include/pressio/solvers_linear/impl/solvers_linear_kokkos_direct_potrs_lower_impl.hpp: solveAllowMatOverwrite", "include/pressio/solvers_linear/impl/solvers_linear_kokkos_direct_geqrf_impl.hpp: solveAllowMatOverwrite"]}
{"id": "C90", "title": "Newton and Gauss-Newton converge quadratically near a root", "statement": "Let F vanish at x*, let F' be Lipschitz and |v| <= beta |F'(x) v| near x*. A Newton solver, or a Gauss-Newton solver (normal equations or QR) for such a residual, started in that neighbourhood with the standard update, never leaves it; its error after each iteration is at most beta gamma / 2 times the square of the error before. With the absolute correction or absolute residual criterion it stops after the number of iterations this predicts, and the state it returns is within a fixed multiple of the tolerance of x*.", "quantifier": "every finite dimensional space, residual, root and starting point in the neighbourhood, every tolerance and every maximal number of iterations below 2^31 - 1", "why_tests_cant": "tests run a few residuals from a few starting points to convergence; an error in the update or in the order of evaluations that only costs the quadratic rate, or a criterion read one iteration too early, still converges on them", "anchors": ["include/pressio/solvers_nonlinear/impl/root_finder.cpp: root_solving_loop_impl", "include/pressio/solvers_nonlinear/impl/nonlinear_least_squares.hpp: NonLinLeastSquares", "include/pressio/solvers_nonlinear/impl/updaters.hpp: DefaultUpdater", "include/pressio/solvers_nonlinear/impl/functions.hpp: solve_newton_step"]}
{"id": "C91", "title": "Implicit integrations of nonlinear equations end, and their errors are those of the scheme plus the tolerance", "statement": "Let an implicit stepper use a Newton solver with full steps and an absolute criterion. An integration returns normally whatever the right hand side is, and every step that begins with a residual small enough for the step size, with enough iterations allowed, ends with a residual as small as the tolerance asks, whether or not a solution of the step equations is known to exist. For a dissipative right hand side with a Lipschitz Jacobian, small enough means c dt L |R| < 2, where R is the residual at the previous state. The states reported then differ from any sequence obeying the scheme up to residuals err_k, such as a solution of the equation, by at most the initial difference, the sum of err_k, and one tolerance per step (for BDF2 sqrt 2 and 6 times these): nothing is amplified.", "quantifier": "every finite dimensional space, right hand side, starting state and time, observer, step size policy, number of steps or target time, tolerance and maximal number of iterations below 2^31 - 1", "why_tests_cant": "tests integrate a few equations for a few steps with solvers that converge; a criterion read one iteration early, a Jacobian scaled by the wrong coefficient or a step accepted without convergence leaves errors within their margins", "anchors": ["include/pressio/ode/impl/ode_implicit_stepper_standard.hpp: ImplicitStepperStandardImpl::doStepImpl", "include/pressio/ode/impl/ode_implicit_policy_residual_jacobian_without_mass_matrix.hpp: ResidualJacobianStandardPolicy", "include/pressio/solvers_nonlinear/impl/root_finder.cpp: root_solving_loop_impl", "include/pressio/ode/ode_advance_n_steps.hpp: advance_n_steps", "include/pressio/ode/ode_advance_to_target_point.hpp: advance_to_target_point"]}
{"id": "C92", "title": "Levenberg-Marquardt solves linear least-squares problems, superlinearly", "statement": "For a system whose residual is A x + b and whose matrix has independent columns, a Levenberg-Marquardt solver with either damping schedule returns normally from every starting state. Measure the error of a state, its difference to the least-squares solution, with each entry multiplied by the length of the corresponding column of A. Every iteration accepts its correction, makes the objective smaller unless the solution has been reached, and multiplies the error by mu/(lam + mu) or less, where lam > 0 depends on A only and the damping mu starts with 1 and is divided by 3 each time (the second schedule stops at 10^-7). Absolute criteria on the correction or the gradient are therefore met after a number of iterations that can be computed beforehand, if it is allowed, and the error of the state returned is then at most a known multiple of the tolerance.", "quantifier": "every finite dimensional least-squares problem with independent columns, starting state, damping schedule, tolerance and maximal number of iterations below 2^31 - 1", "why_tests_cant": "tests solve one or two small problems from one state; a damping that is not reduced, a correction rejected without cause or a schedule that reads the wrong ratio only costs iterations there", "anchors": ["include/pressio/solvers_nonlinear/impl/updaters.hpp: LMSchedule1Updater, LMSchedule2Updater, lm_gain_factor", "include/pressio/solvers_nonlinear/impl/nonlinear_least_squares.hpp: NonLinLeastSquares", "include/pressio/solvers_nonlinear/impl/functions.hpp: compute_correction"]}
{"id": "C93", "title": "Galerkin ROMs of nonlinear FOMs integrated with Newton's method: steps end within the tolerance, errors against the FOM grow at most linearly", "statement": "For a Galerkin ROM (default, hyper-reduced or masked, affine trial space) of a nonlinear FOM, integrated with a new BDF1, BDF2 or Crank-Nicolson stepper and the library's Newton solver (full steps, absolute criterion), every integration over a number of steps, and every integration to a target with step sizes bounded below, returns normally, and every step that begins with a reduced residual small enough for the step size ends with one as small as the tolerance asks. If the FOM is dissipative with an L-Lipschitz Jacobian and the reduction is the adjoint of the basis (as with phi^T, for a basis of any conditioning with |phi x| <= K |x|), small enough depends on the step size, L K^3 and that residual only. If in addition the FOM itself is integrated with such a solver at the same times, the reconstructed ROM states differ from the FOM's by at most the initial difference, the elapsed time times the largest velocity the basis misses at the states the ROM reports, and per step the FOM's tolerance plus K times the ROM's (BDF2: sqrt 2 and 6 times that).", "quantifier": "every dimension, smooth FOM, basis, reference, masker, hyper-reduction operator, initial states, start time, number of steps or target, step sizes, observers, tolerances, maximal numbers of iterations below 2^31 - 1, all three schemes", "why_tests_cant": "tests compare a few ROM states with precomputed numbers; a Jacobian evaluated at another state or time, a wrong coefficient before it, or a criterion read too early still converges there, only more slowly", "anchors": ["include/pressio/rom/impl/galerkin_unsteady_system_default_rhs_and_jacobian.hpp", "include/pressio/rom/impl/galerkin_unsteady_system_hypred_rhs_and_jacobian.hpp", "include/pressio/rom/impl/galerkin_unsteady_system_masked_rhs_and_jacobian.hpp", "include/pressio/ode/impl/ode_implicit_stepper_standard.hpp: ImplicitStepperStandardImpl::doStepImpl", "include/pressio/ode/impl/ode_implicit_policy_residual_jacobian_without_mass_matrix.hpp: ResidualJacobianStandardPolicy", "include/pressio/solvers_nonlinear/impl/root_finder.cpp: root_solving_loop_impl", "include/pressio/ode/ode_advance_n_steps.hpp: advance_n_steps", "include/pressio/ode/ode_advance_to_target_point.hpp: advance_to_target_point"]}
{"id": "C94", "title": "Integrations converge to the solution with the order of their scheme", "statement": "Let y(t) solve y' = f(y,t) on an interval of length T with enough derivatives. Advancing the initial state y(t0) with an explicit stepper over any number n of steps of size h = T/n ends at a state whose distance to y(t0+T) is at most a constant, not depending on n, times h (forward Euler), h^2 (two-step Adams-Bashforth, although its first step is one of forward Euler), h^3 (SSP three-stage Runge-Kutta) or h^4 (four-stage Runge-Kutta), for every f that is Lipschitz in y; the stepper may have been used before. For dissipative f, BDF1, BDF2 (equal steps) and Crank-Nicolson (steps that do not grow) stay at every reported time within the initial error plus the solver's tolerance per step plus elapsed time times a constant times h, h^2, h^2, with no exponential of a Lipschitz constant (BDF2: times sqrt 2 and 6), whatever solver accepts the steps, and in particular with the library's Newton solver.", "quantifier": "every finite or infinite dimensional inner product space, right hand side, smooth solution, start time, interval, number of steps below 2^31 - 1, earlier use of the explicit stepper, solver and tolerance", "why_tests_cant": "tests compare a few states with hand-computed numbers for one or two step sizes; a wrong coefficient, stage time or starting step lowers the order, which shows only in the limit of small steps and only for right hand sides depending on time and state nonlinearly", "anchors": ["include/pressio/ode/impl/ode_explicit_stepper_without_mass_matrix.hpp: ExplicitStepperNoMassMatrixImpl", "include/pressio/ode/impl/ode_implicit_stepper_standard.hpp: ImplicitStepperStandardImpl::doStepImpl", "include/pressio/ode/impl/ode_implicit_discrete_residual.hpp", "include/pressio/ode/ode_advance_n_steps.hpp: advance_n_steps", "include/pressio/ode/ode_advance_to_target_point.hpp: advance_to_target_point", "include/pressio/solvers_nonlinear/impl/root_finder.cpp: root_solving_loop_impl"]}
{"id": "C95", "title": "Reconstructed Galerkin ROM states against the exact solution of the FOM's equation", "statement": "Let y(t) solve the FOM's equation y' = f(y,t) on an interval of length T with enough derivatives, and integrate a Galerkin ROM (default, hyper-reduced or masked, affine trial space, time-dependent masks and hyper-reduction included). Suppose the basis misses at most delta of the FOM's velocity at reconstructed states. With an explicit stepper, used before or not, and n equal steps of size h, the reconstructed final state differs from y(t0+T) by at most exp(L T) times the initial difference plus T (delta + C h^p), with p = 1, 3, 4 for forward Euler, three- and four-stage Runge-Kutta and C not depending on n, the initial state or the ROM (Adams-Bashforth: exp(2 L T), twice T delta, h^2). For dissipative f and BDF1, BDF2 or Crank-Nicolson, at every reported time the difference is at most the initial one plus per step K times the solver's tolerance plus the elapsed time times (delta + C h^p), p = 1, 2, 2, with no exponential (BDF2: times sqrt 2 and 6), where delta counts only at the states the ROM reports and the basis lengthens vectors by K or less; in particular with the library's Newton solver.", "quantifier": "every dimension, FOM, smooth solution, basis, reference, masker, hyper-reduction operator, initial state, start time, interval, number of steps below 2^31 - 1, step sizes, solver and tolerance", "why_tests_cant": "tests compare a few ROM states with precomputed numbers; a wrong stage time passed to the FOM, a reduction applied at the wrong time or a coefficient wrong in one scheme changes the limit or its order, which a comparison for one step size does not show", "anchors": ["include/pressio/rom/galerkin_unsteady_explicit.hpp: create_unsteady_explicit_problem", "include/pressio/rom/galerkin_unsteady_implicit.hpp: create_unsteady_implicit_problem", "include/pressio/rom/impl/galerkin_unsteady_system_default_rhs_only.hpp: GalerkinDefaultOdeSystemOnlyRhs", "include/pressio/rom/impl/galerkin_unsteady_system_default_rhs_and_jacobian.hpp: GalerkinDefaultOdeSystemRhsAndJacobian", "include/pressio/rom/impl/galerkin_unsteady_system_hypred_rhs_only.hpp", "include/pressio/rom/impl/galerkin_unsteady_system_masked_rhs_only.hpp", "include/pressio/ode/impl/ode_explicit_stepper_without_mass_matrix.hpp: ExplicitStepperNoMassMatrixImpl", "include/pressio/ode/impl/ode_implicit_discrete_residual.hpp", "include/pressio/solvers_nonlinear/impl/root_finder.cpp: root_solving_loop_impl"]}
{"id": "C96", "title": "Gauss-Newton converges near a least-squares solution with a residual", "statement": "Let the gradient of |F|^2 vanish at x*, where |F(x*)| <= rho need not be zero, let F' be Lipschitz with constant gamma and |v| <= beta |F'(x) v| near x*, with beta^2 gamma rho + beta gamma rad / 2 < 1. A Gauss-Newton solver (normal equations or QR) with the standard update, started within rad of x*, never leaves this neighbourhood; its error after each iteration is at most beta^2 gamma rho + beta gamma e / 2 times the error e before, so that it shrinks geometrically. With the absolute correction or absolute gradient criterion it stops after the number of iterations this predicts, and the state it returns is within a fixed multiple of the tolerance of x*.", "quantifier": "every finite dimensional space, residual, least-squares solution and starting point in the neighbourhood, every tolerance and every maximal number of iterations below 2^31 - 1", "why_tests_cant": "tests of least-squares solvers use a few fitting problems whose residual is small or zero; that the iteration contracts for every residual below the bound, and that the gradient criterion certifies the distance, are statements about all residuals", "anchors": ["include/pressio/solvers_nonlinear/impl/nonlinear_least_squares.hpp: NonLinLeastSquares", "include/pressio/solvers_nonlinear/impl/updaters.hpp: DefaultUpdater", "include/pressio/solvers_nonlinear/impl/functions.hpp: compute_gradient"]}
{"id": "C97", "title": "LSPG integrations of nonlinear FOMs with Gauss-Newton stay near the least-squares solutions", "statement": "Let an unsteady LSPG problem with BDF1 or BDF2 over a FOM y' = f(y,t) be integrated with a Gauss-Newton solver (normal equations or QR, standard update). The integration ends without an error, over a number of steps or to a target time. In every step: if the residual of the step, formed with the states accepted before it, has a least-squares solution near the state before (gradient zero, Lipschitz derivative, small residual), the new state is in its neighbourhood, and within a fixed multiple of the tolerance of it once the allowed iterations suffice. Where the FOM's own step stays in the trial space, that step is such a solution, with no residual.", "quantifier": "every FOM, reconstruction, trial space, number of steps, step size policy, tolerance and maximal number of iterations", "why_tests_cant": "tests compare a few LSPG trajectories with stored numbers; that no step of any integration leaves the neighbourhood of its own minimiser needs the convergence of Gauss-Newton for all residuals, with the solver and stepper objects reused between steps", "anchors": ["include/pressio/rom/lspg_unsteady.hpp: create_unsteady_problem", "include/pressio/rom/impl/lspg_unsteady_rj_policy_default.hpp: LspgUnsteadyResidualJacobianPolicy", "include/pressio/ode/impl/ode_implicit_stepper_standard.hpp: ImplicitStepperStandardImpl", "include/pressio/solvers_nonlinear/impl/nonlinear_least_squares.hpp: NonLinLeastSquares"]}
{"id": "C98", "title": "LSPG ROMs with scalings, masks, hyper-reduction or fully discrete FOMs solved by Gauss-Newton, and fully discrete Galerkin ROMs solved by Newton, integrate to the end", "statement": "Let the FOM of an unsteady LSPG problem with a scaling, a mask, hyper-reduction, both hyper-reduction and scaling, or a fully discrete FOM never fail, nor the user's scaling, mask or updater. With the library's Gauss-Newton (normal equations or QR, full steps) advancing n steps, or to a target time with bounded-below step sizes, always ends, observing every state, and each state is found from the one before: where the scaled, masked, hyper-reduced or fully discrete residual of the step has a regular least-squares solution with the previous state in its radius, the new state stays in that radius and, if enough iterations are allowed, is as near to the solution as the tolerance asks. For fully discrete Galerkin ROMs with Newton's method, each step that starts well ends where the projected residual of the step is at most the tolerance times a constant.", "quantifier": "all trial maps, FOMs, scalings, masks, updaters, projections, numbers of steps, step sizes, schemes (BDF1 and BDF2; two or three states), solver settings, with and without step recovery", "why_tests_cant": "A test integrates one FOM with one mask; which residual each step minimises, with which stored FOM states, depends on the whole history of steps.", "anchors": ["include/pressio/rom/impl/lspg_unsteady_scaling_decorator.hpp: operator()", "include/pressio/rom/impl/lspg_unsteady_mask_decorator.hpp: operator()", "include/pressio/rom/impl/lspg_unsteady_rj_policy_hypred.hpp: operator()", "include/pressio/rom/impl/lspg_unsteady_fully_discrete_system.hpp: discreteTimeResidualAndJacobianAction", "include/pressio/rom/impl/galerkin_unsteady_system_fully_discrete_fom.hpp: discreteTimeResidualAndJacobianAction"]}
{"id": "C99", "title": "Steady ROMs of nonlinear FOMs are solved, as well as the trial space allows", "statement": "Solving a steady Galerkin problem of a nonlinear FOM with Newton's method, or a steady LSPG problem with Gauss-Newton, always ends normally. From a start that is good enough, Newton's method returns a state whose projected residual is at most the tolerance times a constant, and Gauss-Newton a state as near to the least-squares solution as the tolerance asks; a FOM solution that lies in the trial space is found. If the FOM's residual is Lipschitz and strongly monotone and the basis orthonormal, the reconstruction of the Galerkin state is no farther from the FOM's solution than L/c times the best state of the trial space, up to the tolerance; the same for LSPG wherever the residual measures the distance to the FOM's solution.", "quantifier": "all nonlinear FOMs, trial maps, masks, scalings, hyper-reduction operators, starts, tolerances and numbers of iterations; default, masked and hyper-reduced Galerkin, default, masked and scaled LSPG; normal equations and QR", "why_tests_cant": "Tests compare the solution of one problem from one start with a stored one; the distance to the FOM's solution over all states of the trial space cannot be tested.", "anchors": ["include/pressio/rom/galerkin_steady.hpp: create_steady_problem", "include/pressio/rom/lspg_steady.hpp: create_steady_problem", "include/pressio/rom/impl/galerkin_steady_system_default.hpp: residualAndJacobian", "include/pressio/rom/impl/lspg_steady_system_default.hpp: residualAndJacobian", "include/pressio/solvers_nonlinear/solvers_create_newton.hpp: create_newton_solver", "include/pressio/solvers_nonlinear/solvers_create_gauss_newton.hpp: create_gauss_newton_solver"]}
{"id": "C100", "title": "LSPG of a dissipative linear FOM: errors against the FOM grow at most linearly", "statement": "Let the FOM be y' = A(t) y + b(t) with (A(t) v, v) <= 0 and |A(t) v| <= L |v|, the trial space affine with independent basis vectors. A BDF1 integration of the LSPG problem with the library's Gauss-Newton (normal equations or QR, full steps) over a number of steps, or to a target with step sizes bounded below, ends successfully and reports every state. Against any sequence of full states that obeys BDF1 at the times of the run up to residuals err_j, the error of the k-th reconstructed state is at most the initial error plus the sum over the steps j < k of (1 + L h_j) times the distance of the j+1-st full state from the trial space plus 2 err_j: no constant of the bound grows exponentially with time, whatever the step sizes. Against a solution of the FOM's equations with second derivative at most K, and steps of at most h, the error grows by at most (1 + L h) times the distance of the solution from the trial space per step, and by K h per unit of time.", "quantifier": "every dimension, A(t), b(t), basis and reference, initial state, start time, number of steps, nonnegative step sizes, observer, reused or new solver object, and every reference sequence of full states", "why_tests_cant": "The bound quantifies over all trial spaces, all reference trajectories and unboundedly many steps; a test compares one run with stored numbers.", "anchors": ["include/pressio/rom/lspg_unsteady.hpp: create_unsteady_problem", "include/pressio/rom/impl/lspg_unsteady_rj_policy_default.hpp", "include/pressio/ode/impl/ode_implicit_discrete_residual.hpp", "include/pressio/ode/impl/ode_implicit_discrete_jacobian.hpp", "include/pressio/solvers_nonlinear/solvers_create_gauss_newton.hpp: create_gauss_newton_solver", "include/pressio/ode/impl/ode_advance_n_steps.hpp", "include/pressio/ode/impl/ode_advance_to_target_time.hpp"]}
{"id": "C101", "title": "An LSPG run of a linear FOM depends on the trial space, not on the basis, the reference state or the linear solver", "statement": "Take two LSPG problems of the same FOM y' = A(t) y + b(t) with the same scheme (BDF1 or BDF2), whose affine trial spaces are equal as sets of full states although their bases, reference states and numbers of reduced unknowns may differ, and integrate them with the library's Gauss-Newton: normal equations or QR, any exact linear solver, any tolerance and iteration limit, over a number of steps or to a target. If they start from the same full state, take the same times going forward, and the least-squares problem of every forward step has exactly one solution, then they report the same full states at every step. For a dissipative FOM a basis with independent columns is enough for the last condition.", "quantifier": "every dimension, A(t), b(t), pair of bases and reference states of one trial space, initial state, start time, number of steps, nonnegative step sizes, observer, reused or new solver objects, both schemes, both Gauss-Newton variants", "why_tests_cant": "The claim compares pairs of runs over all bases of a space, all solvers and unboundedly many steps.", "anchors": ["include/pressio/rom/lspg_unsteady.hpp: create_unsteady_problem", "include/pressio/rom/impl/lspg_unsteady_rj_policy_default.hpp", "include/pressio/rom/create_subspace.hpp: create_trial_column_subspace", "include/pressio/solvers_nonlinear/solvers_create_gauss_newton.hpp: create_gauss_newton_solver", "include/pressio/ode/impl/ode_advance_n_steps.hpp", "include/pressio/ode/impl/ode_advance_to_target_time.hpp"]}
