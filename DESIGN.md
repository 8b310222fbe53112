# Formal model of Pressio/pressio: design

## 1. Method

The C++ headers under `/repo/include/pressio` are modelled function by function as total,
computable Gallina functions (files `*Model.v`, `NonlinDiag.v`, `ProblemObjects.v`; no proofs in
them). Properties are stated against small separate specifications (`*Spec.v`), proved in
`*Proofs.v` and the other proof files, and collected in `Prop*.v` files, which contain only
`Theorem ... Proof. exact lemma. Qed.` followed by `Print Assumptions`. `Ex*.v` files hold
concrete, non-trivial instances of the hypotheses.

General modelling decisions

* **Arithmetic.** The C++ is templated over scalar and vector types and uses the external
  `pressio-ops` library (`ops::update`, `ops::product`, `ops::norm2`, ...), which is not in
  the repository. The model is polymorphic over *records of operations without laws*.
  Control-flow theorems need no laws and so hold for floating point as well. Theorems about
  values take the laws of a field / vector space / inner product as explicit hypotheses;
  `Tuples.v` proves those laws for real tuples and matrices of every size over every field,
  and the rationals `Qc` are used to compute examples.
  `ops::update(v,a,v1,b,...)` is `v := a*v + b*v1 + ...`; with the literal coefficient 0 the
  old content of `v` is not read.
* **User code** (right-hand sides, step-size policies, guessers, observers, solvers) is a
  universally quantified function. Stateful user code threads a world `W` shared by
  all user objects; a call returns an outcome and the new world, so user code may throw after
  having modified things. Nonlinear solvers, when seen from a stepper, are arbitrary
  interaction trees: any adaptive finite sequence of residual/Jacobian evaluations ended by
  success, `NonlinearSolveFailure` or another exception.
* **Outcomes.** `Ok`, `Throw e` (a C++ exception), `Undef u` (undefined behaviour:
  signed overflow, out-of-bounds, null dereference), `NoFuel` (the model ran out of fuel; no
  claim about the program is ever derived from it except non-termination, which is
  "NoFuel for every fuel").
* **Integers.** Step counters are `Z` with an explicit int32 overflow check.
* **Exceptions/rollback.** Objects' state is returned also when a call throws.
* **Assertions.** `assert` is compiled out (release build, `NDEBUG`). Where the release behaviour
  after a violated assertion matters, it is the one modelled.

## 2. Property plan

One row per property of `properties.jsonl`; the theorem names are in `MANIFEST.json`.

| id | model | how | outcome |
|----|-------|-----|---------|
| C01 | `AdvanceModel` | both advance-n loops with call trace; induction over the loop; the trace equals a closed-form list, and a prefix of it on exceptions | proved |
| C02 | `AdvanceModel` | induction; splitting for steppers that ignore the step number | proved |
| C03 | `AdvanceModel` | int32 counter; refuted for N = INT32_MAX by a symbolic induction (the loop is not executed); proved for every other count | partial, part refuted |
| C04 | `AdvanceModel` | `to_target` loop with fuel; big-step relation of runs, both directions, by induction on fuel and on the relation | proved |
| C05 | `AdvanceModel` | measure on the distance to the target, over R; without lower bound: NoFuel for every fuel | proved |
| C06 | `AdvanceModel` | case analysis of the entry checks | proved |
| C07 | `AdvanceModel` | induction over retries, geometric step sizes | proved |
| C08 | `AdvanceModel` | overload table of the public functions; refuted | partial, part refuted |
| C09 | `AdvanceModel` | loop instantiated with binary64 (stdlib `SpecFloat`); refuted by a computed witness | partial, part refuted |
| C10 | `ExplicitModel` | equality with the tableau specification for every content of the buffers | proved |
| C11 | `ExplicitModel` | induction over steps: stored slope = slope of the previous step | proved |
| C12 | `ExplicitModel` | as C10/C11 with a linear solver as oracle | proved |
| C13 | `ExplicitModel` | evaluation of the tableau on polynomials and on y'=ly, over any field of characteristic 0 | proved |
| C14 | `ImplicitModel` | algebra over the vector space laws | proved |
| C15 | `ImplicitModel` | Frechet derivative over R (`RomSpec`, `Laws`) of the residual | proved |
| C16 | `ImplicitModel` | refinement to a pure residual built from the list of accepted states, for all failure histories | proved |
| C17 | `ImplicitModel` | induction on the interaction tree of the solver | proved |
| C18 | `ImplicitModel` | refuted: two witnesses | partial, part refuted |
| C19 | `ImplicitModel` | refinement as C16 for the first run; witness for the second | partial, part refuted |
| C20 | `ImplicitModel`, `AdvanceModel` | refuted: witness | partial, part refuted |
| C21 | `NonlinModel` | loop invariants; the run is a sequence of iterates related by one correction | proved |
| C22 | `NonlinModel`, `NonlinDiag` | case analysis of solver/criterion pairs | partial, part refuted |
| C23 | `NonlinDiag` | induction over iterations | proved |
| C24 | `NonlinModel` | bounded search induction over R | proved |
| C25 | `NonlinModel` | order reasoning over R; refuted for the default parameter | partial, part refuted |
| C26 | `NonlinModel` | refuted for both solvers; the updater itself proved | partial, part refuted |
| C27 | `NonlinModel` | invariant of the loop | proved |
| C28 | `NonlinModel` | invariant over all updates | proved |
| C29 | `NonlinModel` | refuted; the formula computed is given | partial, part refuted |
| C30 | `NonlinModel` | inner product laws: normal equations = orthogonality of the residual | proved |
| C31 | `NonlinModel` | as C30, for affine residuals | proved |
| C32 | `NonlinDiag` | induction over lists of requested diagnostics | proved |
| C33 | `SubspaceModel` | constructors over a heap (value and view semantics); simulation over all histories of outside writes | partial, part refuted |
| C34 | `LspgModel` | invariant over histories: FOM states = images of the accepted reduced states | proved |
| C35 | `LspgModel` | same invariant over two runs; refuted if the first run ended in step 1 | partial, part refuted |
| C36 | `LspgModel` | index arithmetic; refuted for n-2 | partial, part refuted |
| C37 | `GalerkinModel` | projection equations for all variants; derivative over R; steps composed with `ExplicitModel`/`ImplicitModel` | proved |
| C38 | `LspgModel` | residual equations; derivative over R | proved |
| C39 | `LinearRomModel` | linear algebra; refuted for the forcing of the matrix operator | partial, part refuted |
| C40 | `QrModel` | induction over columns, inner product laws over R | proved |
| C41 | `FactoryModel` | table of schemes x factories against the documented table; the steps of created objects by C10-C12, C48 and C80; refuted in two cases | partial, part refuted |
| C42 | `ReconModel` | induction over the rows of the file | partial, part refuted |
| C43 | `ExplicitModel` | case analysis over calls in execution order | proved |
| C44 | `ExplicitModel` | constructor order; refuted for temporaries | partial, part refuted |
| C45 | `ExplicitModel` | C10 holds for every content of the buffers; witness for AB2 | partial, part refuted |
| C46 | `ImplicitModel` | induction on the interaction tree; witness for Crank-Nicolson | partial, part refuted |
| C47 | `ImplicitModel`, `AdvanceModel` | induction over steps; witness for BDF2 | partial, part refuted |
| C48 | `AdvanceModel`, `ImplicitModel` | composition of C04/C01 with C16 (`ImplicitRun`, `ImplicitSim`) | proved |
| C49 | `NonlinModel` | loop invariant; witness for least squares | partial, part refuted |
| C50 | `NonlinModel` | real case by invariant; binary64 witness | partial, part refuted |
| C51 | `NonlinModel`, `ImplicitModel` | composed witness | partial, part refuted |
| C52 | `NonlinModel` | all calls of the standard update; witness for a line search | partial, part refuted |
| C53 | `NonlinModel`, `ImplicitModel` | composition of C31 and C14 | proved |
| C54 | `MatrixFreeModel` | simulation of the two loops | proved |
| C55 | `NonlinModel` | symbolic induction to INT_MAX; refuted | partial, part refuted |
| C56 | `NonlinModel`, `ImplicitModel` | composed witness with default settings | partial, part refuted |
| C57 | `QrModel` | induction over columns; refuted | partial, part refuted |
| C58 | `QrModel` | second factorisation with the same object; refuted for other column counts | partial, part refuted |
| C59 | `SubspaceModel` | case analysis; refuted | partial, part refuted |
| C60 | `LspgModel`, `ImplicitModel` | witness | partial, part refuted |
| C61 | `LspgModel` | call log of the FOM; refuted for masked problems | partial, part refuted |
| C62 | `ProblemObjects` | objects in a memory with addresses; invariant over copies, moves and destructions; refuted for explicit Galerkin | partial, part refuted |
| C63 | `GalerkinModel`, `ImplicitModel` | projection identities; refuted for a basis that is not orthonormal | partial, part refuted |
| C64 | `GalerkinModel` | case analysis; refuted for hyper-reduced problems | partial, part refuted |
| C65 | `ReconModel` | rounding to six significant digits; refuted | partial, part refuted |
| C66 | `ReconModel` | refuted | partial, part refuted |
| C67 | `SteadyLspgModel` | forward execution; chain rule for the derivative | proved |
| C68 | `SteadyLspgModel`, `GalerkinModel`, `NonlinModel`, `QrModel` | the reduced residual is affine; then C40 for the solvers | proved |
| C69 | `TrilinosModel` | induction over rows and columns; refuted for missing indices | partial, part refuted |
| C70 | `LinsolveModel` | LAPACK as oracle with its documentation as hypothesis; invariant of the workspace size over the call history; refuted for geqrf with every LAPACK | partial, part refuted |
| C71 | `LinsolveModel` | case analysis; refuted | partial, part refuted |
| C72 | `LinsolveModel`, `LinsolveMf` | induction over scripts of calls and assignments; refuted for iterative solvers | partial, part refuted |
| C73 | `StencilModel` | memory of objects; refuted for view types | partial, part refuted |
| C74 | `NonlinModel` | two runs related step by step (relational program logic); induction over histories | proved |
| C75 | `GalerkinModel`, `ExplicitModel`, `ImplicitModel` | schemes commute with affine maps (induction over stages and steps); residual algebra for implicit schemes | proved |
| C76 | `ExplicitModel`, `AdvanceModel` | discrete Gronwall: one step of each tableau multiplies differences by at most exp(L h), induction over steps; mean value theorem for the local error of Euler | proved |
| C77 | `ImplicitModel`, `AdvanceModel` | energy estimates (G-stability for BDF2) on the chain of accepted states of C48, Cauchy-Schwarz, induction over the steps; mass matrices by the energy inner product | proved |
| C78 | `GalerkinModel`, `ExplicitModel`, `ImplicitModel` | the stage induction of C76 with the defect added in every stage; the lifted ROM run is an inexact FOM run, so C76/C77 apply; orthogonal projections by expanding the square | proved |
| C79 | `LspgModel` | inversion of one evaluation through the FOM states manager; chain rule for affine trial maps | proved |
| C80 | `LspgModel`, `ImplicitModel`, `AdvanceModel` | the refinement of C34 to fresh problems (residual and Jacobian functions of the accepted states) composed with the advancers (C48 pattern): certified solver runs yield accepted states, induction over attempts and steps | proved |
| C81 | `LspgModel`, `ImplicitModel`, `NonlinModel`, `AdvanceModel` | one Gauss-Newton correction of an affine residual gives the stationary point and the second iteration stops the loop (RomLsProofs); step_refines and an invariant on the reused solver object carry it along runs (ExactRun, CompleteRun); uniqueness of the minimiser gives exactness by induction on the chain | proved |
| C82 | `ImplicitModel`, `NonlinModel`, `AdvanceModel` | one Newton correction solves the affine system of a step and the second iteration stops the loop (LinRunProofs); step_refines and an invariant on the reused solver object carry it along runs (ExactRun, CompleteRun); for dissipative equations the energy inequality makes the matrices one-to-one, hence invertible, and the runs are chains to which the stability lemmas of C76/C77 apply (LinRunClaims) | proved |
| C83 | `GalerkinModel`, `ImplicitModel`, `NonlinModel`, `AdvanceModel` | the ROM system computes A_r x + b_r with A_r = P D phi and its matrix (GalLinProofs), so C82 applies; dissipativity passes to the adjoint projection; both runs have residual zero, so the estimates of C78 hold with tolerance 0 | proved |
| C84 | `SolverObjects` | invariant over every history: what a solver holds changes only through its own solves (SolverObjectsProofs); refuted by witness for temporary systems and compact weighting operators | partial, part refuted |
| C85 | `LinGlue`, `LinsolveModel`, `NonlinModel` | the objects of C70 to C72 are put in the place of the linear solver of the nonlinear solvers (LinGlue); each meets the requirement linear_ok for every size, so that C31 and C82 apply | proved |
| C86 | `ArgsModel` | the arguments become part of what persists between stepper calls; a simulation over the loops (users that differ only in their world do the same thing) compares the run with that of a stepper with built-in values, or with a stepper that counts its calls; two computed witnesses refute the full statement | partial, part refuted |
| C87 | `HouseModel` | the object is a pair of pointers into a store of matrices; its answers after a factorisation are shown to be those of a new object; with the documented properties of the Householder factorisation, back substitution on the upper triangle gives the least-squares solution, and the theorem on affine Gauss-Newton solves applies | proved |
| C88 | `HouseModel` | two objects over one store; the witness is a pair of 2 by 1 matrices, for every factorisation that meets its documentation | partial, part refuted |
| C89 | `LinsolveModel` | case analysis on the sizes; refuted without assertions | partial, part refuted |
| C90 | `NonlinModel` | induction over the iterations; error estimate in inner product spaces; mean value theorem | proved |
| C91 | `NonlinModel`, `ImplicitModel`, `AdvanceModel` | induction over the iterations of each solve and over the steps; mean value theorem; refinement of the stepper to its scheme | proved |
| C92 | `NonlinModel` | induction over the iterations with an invariant indexed by their number (error, damping); energy estimate in the norm of the damping matrix | proved |
| C93 | `GalerkinModel`, `NonlinModel`, `ImplicitModel`, `AdvanceModel` | the ROM shown to be a smooth system with the reduced right hand side and its derivative; C91 for it; dissipativity and Lipschitz constants inherited through the adjoint; energy estimates against the FOM run | proved |
| C94 | `ExplicitModel`, `ImplicitModel`, `AdvanceModel`, `NonlinModel` | truncation errors from derivatives by comparison (mean value theorem), expansion of the stages along the solution to the order of the scheme as multilinear maps, against the stability theorems of C76, C77 and C91 | proved |
| C95 | `GalerkinModel`, `ExplicitModel`, `ImplicitModel`, `AdvanceModel`, `NonlinModel` | the exact solution as a comparison run with defect in the stability theorems of C76-C78 and C93, its defect bounded as in C94 | proved |
| C96 | `NonlinModel` | induction over the iterations; error estimate in inner product spaces; mean value theorem | proved |
| C97 | `LspgModel` | C96 in each step, as the solver of C81; induction over the steps | proved |
| C98 | `LspgModel` | the step problems of C80 with user objects that never fail, C96 or C91 in each step; induction over the steps | proved |
| C99 | `SteadyLspgModel` | the steady problems compute the reduced residual and its Jacobian (C67), then C91 and C96; the error estimates by Cauchy-Schwarz and the triangle inequality | proved |
| C100 | `LspgModel`, `ImplicitModel`, `NonlinModel`, `AdvanceModel` | C81; the residual of each step is orthogonal to the images of the trial space, which puts the error on a sphere over the old error and the approximation error (LspgErrProofs); induction over the steps | proved |
| C101 | `LspgModel`, `ImplicitModel`, `NonlinModel`, `AdvanceModel` | C81 for both runs; the residual of a step depends on the full states only, so the only minimisers correspond (LspgBasisProofs); induction over the steps | proved |

Properties false of the code are proved as `..._refuted` with a concrete witness and listed in section 4.

Not expressible in this kind of model, and therefore not in the list: properties of overload
resolution and concept checking (which calls compile), performance, numerical accuracy in floating
point of whole runs, behaviour of MPI programs.

## 3. Trusted base

* Coq 8.16.1 kernel (checked again with `coqchk -o`); the axioms listed per theorem by
  `Print Assumptions` (section 5), all from the standard library of the reals.
* The correspondence model/source, stated in the comments with file and lines.
* The meaning given to `pressio-ops` functions (section 1).
* Compilation, the C++ standard library and the hardware.

### Modelled

| model | code (under `include/pressio`) |
|-------|------|
| `AdvanceModel` | `ode/impl/ode_advance_n_steps.hpp`, `ode/impl/ode_advance_to_target_time.hpp`, the noop guesser and observer, and the table of the public overloads `ode/ode_advance_*.hpp` |
| `HouseModel` | `solvers_nonlinear/impl/qr/qr_eigen_impl.hpp`, `TpetraMVHouseholderUsingEigen` of `qr_tpetra_impl.hpp`; Eigen's factorisation is an oracle |
| `ArgsModel` | the forwarding of the extra arguments in `ode/ode_advance_*_variadic.hpp` and the loops of `AdvanceModel` |
| `ExplicitModel` | `ode/impl/ode_explicit_stepper_with(out)_mass_matrix.hpp`, `ode/impl/ode_explicit_create_impl.hpp`, owning/referring wrapper |
| `ImplicitModel` | `ode/impl/ode_implicit_stepper_standard.hpp`, `ode_implicit_stepper_arbitrary.hpp`, both residual/Jacobian policies, `ode_implicit_discrete_residual.hpp`, `ode_implicit_discrete_jacobian.hpp`; the stencil containers as lists |
| `LinGlue` | the calls solve(J, r, c) and solve(H, g, c) of `solvers_nonlinear/impl/functions.hpp` with the objects of `LinsolveModel` |
| `SolverObjects` | `solvers_nonlinear/impl/registries.hpp`, `instance_or_reference_wrapper.hpp`, `solve` of `root_finder.cpp` and `nonlinear_least_squares.hpp` (which objects they work with) |
| `NonlinModel`, `NonlinDiag` | `solvers_nonlinear/impl/root_finder.cpp` (the header of the root finder), `nonlinear_least_squares.hpp`, `updaters.hpp`, `functions.hpp`, `registries.hpp` (what they hold, as record fields), `levmar_damping.hpp`, `diagnostics.hpp` |
| `MatrixFreeModel` | matrix-free part of the root finder; `solvers_linear_eigen_iterative_matrix_free_impl.hpp` (the product with the Jacobian action; the Krylov method is an oracle) |
| `QrModel` | `ModGramSchmidtMVTpetra` of `qr/qr_tpetra_impl.hpp` (one process; Tpetra kernels as operations) |
| `SubspaceModel` | `rom/linear_subspace.hpp`, `rom/impl/linear_trial_column_subspace.hpp`, `rom/create_subspace.hpp` |
| `LspgModel` | `rom/impl/lspg_unsteady_*.hpp` (states manager, default and hyper-reduced policies, mask and scaling decorators, fully discrete system), `rom/impl/galerkin_unsteady_fom_states_manager.hpp`, both fully discrete Galerkin systems, `rom/lspg_unsteady.hpp` |
| `GalerkinModel` | all `rom/impl/galerkin_(un)steady_system_*.hpp` that are not fully discrete, `rom/galerkin_*.hpp` |
| `ProblemObjects` | ownership in `galerkin_unsteady_explicit_problem.hpp`, `lspg_unsteady_problem.hpp`, `instance_or_reference_wrapper.hpp` |
| `SteadyLspgModel` | `rom/lspg_steady.hpp`, `rom/impl/lspg_steady_system_default.hpp`, `rom/impl/lspg_steady_system_masked.hpp`, `rom/impl/noop.hpp` |
| `TrilinosModel` | `rom/rom_lspg_unsteady_hypred_updater_trilinos.hpp` (what one process owns; map lookups as in Tpetra's documentation) |
| `LinearRomModel` | `rom/linear_rom.hpp` |
| `ReconModel` | `rom/impl/lspg_unsteady_reconstructor.hpp` (files as lists of lines of numbers), ascii export of `rom/linear_rom.hpp` (the six significant digits of whole numbers) |
| `LinsolveMf` | `solvers_linear/impl/solvers_linear_eigen_iterative_matrix_free_impl.hpp`, `solvers_linear_iterative_base.hpp` (the native GMRES is an oracle) |
| `LinsolveModel` | `solvers_linear/impl/solvers_linear_kokkos_direct_*.hpp` (host versions; LAPACK/BLAS are oracles), `solvers_linear_eigen_direct_impl.hpp`, `solvers_linear_eigen_iterative_impl.hpp`, `solvers_linear_iterative_base.hpp` (Eigen's solvers are oracles) |
| `StencilModel` | `ode/impl/ode_stencil_data_container_static.hpp`, `ode/impl/ode_stencil_data_container_dynamic.hpp` |
| `FactoryModel` | scheme checks of all factories |

### Not modelled

* Concepts, predicates and traits (`*_concepts*.hpp`, `predicates.hpp`, `*_traits.hpp`,
  `ode_advance_mandates.hpp`, `concepts_helpers.hpp`), umbrella headers, `pressio_macros.hpp`: no run-time behaviour.
* Logging and printing helpers, except which diagnostics are printed (C32).
* The CUDA versions in `solvers_linear`, the arithmetic inside LAPACK and Eigen; the
  TSQR classes of `qr_tpetra_impl.hpp` (calls to Belos/Trilinos). Where a theorem
  needs a linear solver it is an oracle with its specification as hypothesis.
* `pressio-ops` (other repository), MPI, threads; floating-point rounding except in the
  binary64 witnesses.
* The template machinery of the tag-based registries: tag lookup by index and the extension by the state (their content, and which objects they own or refer to, is modelled).
* The byte format of files beyond lines of numbers; the decimal printing of numbers that are not whole.

## 4. Findings

Each is a theorem about the model with a concrete witness (theorem names in `MANIFEST.json`).

* **C03** `advance_n_steps` with the largest `int32` count overflows its signed loop counter.
* **C05** `advance_to_target_point` with a policy that does not set the step size never returns.
* **C07** Step recovery with minimum step size 0, which the interface allows, retries for ever if the step keeps failing.
* **C08** The overloads of `advance_to_target_point_with_step_recovery` without stepper arguments instantiate the loop without recovery: a step failure escapes.
* **C09** In binary64, 64 steps of 0.1 towards 64*0.1: the loop makes 65 steps and ends past the target.
* **C18** Exceptions other than `NonlinearSolveFailure` (thrown by the solver or the system) leave the state half updated and the BDF2 history shifted.
* **C19** Crank-Nicolson recomputes f_n only if the step number changes: the second run of one stepper object starts with f_n of the first.
* **C20** The guesser changes the state before the stepper saves it, so the guess becomes y_n of the scheme.
* **C22** Newton with a gradient stop criterion throws `std::out_of_range`: the root finder tracks no gradient.
* **C25** `BacktrackStrictlyDecreasingObjective` accepts equal objectives with its default parameter.
* **C26** Setting `Update::Armijo` runs the backtracking update in the least-squares solvers and throws in the root finder; the Armijo updater is never used.
* **C29** The Levenberg-Marquardt gain ratio has the wrong denominator: 3 where the model of the objective is exact and the ratio should be 1.
* **C33** Full-state types with view semantics (Kokkos): the translation is copied shallowly, so later writes to the user's object change the subspace; the constructor of a subspace that is not affine fills the user's vector with zeros.
* **C34** If a solver accepts a step without evaluating the residual, BDF2 uses a FOM state that is one step too old. The library's solvers always evaluate.
* **C35** An LSPG or fully discrete problem object whose previous run ended in its step 1 starts the next run from the previous run's initial condition.
* **C36** The states manager, asked to reconstruct the state at n-2, writes one entry too far: out of bounds with four stored states, the wrong entry with more.
* **C39** `RomLinearThingy` for a matrix operator: the reduced forcing is declared but never computed.
* **C41** The implicit steppers accept Crank-Nicolson, excluded by the documentation; implicit Galerkin problems with mass matrix accept it as documented but each step throws.
* **C42** The reconstructor: a missing or empty file, or a row with more values than the reduced dimension, is an access out of bounds; a shorter row uses values never set.
* **C44** An explicit stepper, or an implicit stepper of a fully discrete system, created from a temporary system makes its buffers from the moved-from object.
* **C45** AdamsBashforth2: a step retried after a failure does not compute what it would have without the failure, because the stored slopes were already overwritten.
* **C46** Crank-Nicolson: a velocity failure is not translated into a step failure, and the state stays changed.
* **C47** BDF2 with a changed step size uses the constant-step coefficients: y'=1 is not integrated exactly.
* **C49** Least-squares solvers return normally when the iterations are exhausted without convergence.
* **C50** Relative criteria at an exact root: 0/0 in binary64, the solver does not stop.
* **C51** An implicit step whose solver runs a fixed number of iterations is accepted unconverged: y'=-y^2 with one Newton iteration leaves the residual 1/9.
* **C52** A residual failure at a trial state of a line search escapes untranslated.
* **C55** Iteration limit `INT_MAX` overflows the iteration counter.
* **C56** With default settings (absolute tolerance on the correction) y'=1 with step size 1e-7 never moves.
* **C57** `computeThin` of the Gram-Schmidt factorisation overwrites its input matrix.
* **C58** A QR object used again with more columns reads out of bounds; with fewer it returns the old number of columns.
* **C59** `basis()` of a trial subspace that is not affine dereferences a null pointer.
* **C60** LSPG: a velocity failure of the FOM is not translated; state and history are not rolled back.
* **C61** Masked LSPG computes the FOM Jacobian action also when only the residual is asked for.
* **C62** A copied or moved explicit Galerkin problem still refers to the first object's system: dangling after the first is destroyed.
* **C63** Galerkin without mass matrix for a basis that is not orthonormal does not make the FOM residual orthogonal to the trial space.
* **C64** `residual` and `applyJacobian` of hyper-reduced steady Galerkin problems always throw.
* **C65** The ascii export writes six significant digits: different operators give the same file.
* **C66** The reconstructor ignores the scheme it is given when assertions are off.
* **C69** The Trilinos updater reads out of bounds, with assertions off, if the stencil mesh lacks an index of the sample mesh.
* **C70** The geqrf solver asks LAPACK for the workspace size once, for its first system. A later, larger system (more than 32 times with the usual block size) is rejected by LAPACK; with assertions off the solver goes on with the unfactorised matrix and returns a wrong solution.
* **C71** Singular and not positive definite matrices: LAPACK's return code is only asserted, release builds return normally. The QR based solver never notices.
* **C72** Eigen's iterative solvers keep a reference to the matrix: changing it between `resetLinearSystem` and `solve` changes the system that is solved.
* **C73** Dynamic stencil containers of view types erase the objects they are made from; copies of stencil containers of view types share their data; `size()` of a default constructed dynamic container is indeterminate.
* **C75** Not a bug by itself, but easily missed: for a basis that is not orthonormal, Galerkin problems without mass matrix do not integrate the projected FOM, even if the trial space contains all of the FOM's velocities (compare C63).
* **C84** A nonlinear solver stores the address of its system; the factories accept temporaries, after which `solve(x)` reads a destroyed object. For Newton this breaks a documented precondition (solvers_create_newton.hpp 66-68: the system must outlive the return of the factory, a named linear solver the solver; literally the former is still too weak, the system has to live until `solve(x)`); the headers of the Gauss-Newton, Levenberg-Marquardt and matrix-free Newton factories state none. Independently of that, the compact weighted registry calls `weigher.leadingDim()` (registries.hpp 260-261) after forwarding `weigher` to its own copy: a temporary has been moved from by then, and the buffers get the leading dimension of what is left.
* **C86** `advance_n_steps`, `advance_to_target_point` and the step recovery version `std::forward` the extra arguments to the stepper in every iteration of their loops (`ode_advance_n_steps.hpp` 100, `ode_advance_to_target_time.hpp` 155 and 174). A temporary that the stepper takes by value, or by `&&` and moves from, is therefore moved from at the first call; the second step, or the first retry, finds an empty object. The tests of the variadic API pass temporaries but take one step.
* **C88** `QRHouseholderDenseEigenMatrix` keeps Q in a `shared_ptr` (`qr_eigen_impl.hpp` 70), its copy is the default one (and, since the destructor is declared, so is its move), and `computeThinOutOfPlace` writes into the shared matrix unless both sizes differ (83-88), while each object has its own R (81). After a copy has factorised another matrix the original therefore applies the Q of one matrix and the R of another. The Gauss-Newton solver factorises before each use, so it is not affected.
* **C89** The sizes of a system are only asserted: without assertions the LU and Cholesky based solvers return the right hand side as the solution if both vectors are too short (and LAPACK's error handler returns), and return normally if they are too long. Empty systems are refused by LAPACK and end the program in builds with assertions.

Also proved: `C54_update_setting_ignored`, the matrix-free root finder silently uses the standard
update whatever is set.

## 5. Axioms per theorem

As printed by `Print Assumptions` below each theorem. No axiom is declared in this development.

**Closed under the global context, no axioms** (299 theorems)

* `PropAdvance`: C01_calls_in_order, C01_nonpositive_count, C02_fixed_dt_states_and_times, C02_splitting, C03_no_overflow_below_max, C03_step_counter_refuted, C04_every_run_is_as_specified, C04_every_specified_run_happens, C04_stops_at_first_time_reaching_target, C06_backwards_throws_before_any_call, C06_equal_returns_without_any_call, C07_attempt_sizes, C07_retries_in_the_trace, C08_no_args_overload_refuted, C08_witness_refuted, C09_lands_on_target_refuted
* `PropArbCreate`: C44_arbitrary_from_lvalue, C44_arbitrary_from_temporary_partial, C44_arbitrary_from_temporary_refuted, C44_arbitrary_temporary_states
* `PropArgs`: C86_n_steps_partial, C86_to_target_partial, C86_single_step, C86_n_steps_exact, C86_to_target_exact, C86_n_steps_refuted, C86_retry_refuted
* `PropExplicit`: C10_textbook_update, C10_integrated_by_the_advancer, C11_ab2_recurrence, C11_recurrence_has_a_solution, C11_integrated_by_the_advancer, C12_mass_matrix_one_step_schemes, C12_mass_matrix_ab2, C13_quadrature_exact, C13_linear_growth_factor, C13_ab2_quadrature_exact, C43_failed_step_leaves_state, C43_failed_step_leaves_state_mass_matrix, C43_used_steppers_keep_their_buffers, C44_created_from_lvalue, C44_created_from_temporary_partial, C44_created_from_temporary_refuted, C45_retry_one_step_schemes, C45_retry_ab2_refuted
* `PropFactory`: C41_outside_throws_partial, C41_crank_nicolson_refuted, C41_inside_creates, C41_explicit_steps, C41_mass_matrix_refuted, C41_adams_bashforth_steps, C41_mass_matrix_steps, C41_implicit_steps, C41_implicit_mass_matrix_steps_partial, C41_lspg_steps
* `PropGalerkin`: C37_rhs, C37_rhs_and_jacobian, C37_mass_matrix_and_rhs, C37_mass_matrix_rhs_and_jacobian, C37_steady, C37_steady_matrix_free, C37_explicit_one_step_schemes, C37_explicit_ab2, C37_explicit_mass_matrix, C37_implicit, C37_implicit_mass_matrix, C37_identity_basis, C37_fom_failure, C37_jacobian_only_on_request, C62_explicit_galerkin_partial, C62_lspg, C62_copied_explicit_galerkin_refuted, C62_moved_explicit_galerkin_refuted, C63_orthonormal_basis_partial, C63_mass_matrix_partial, C63_any_basis_refuted, C64_hyper_reduced_steady_refuted
* `PropHouse`: C87_last_matrix, C87_asking_changes_nothing, C87_before_first_factorisation, C87_tpetra, C87_tpetra_asking, C88_same_size, C88_other_size_partial, C88_triangular_factor_kept, C88_unrelated_objects, C88_tpetra
* `PropImplicit`: C14_residual_bdf1, C14_residual_bdf2_first_step, C14_residual_bdf2, C14_residual_crank_nicolson, C14_residual_bdf1_mass_matrix, C14_residual_bdf2_mass_matrix_first_step, C14_residual_bdf2_mass_matrix, C16_every_schedule_has_a_history, C16_history_bdf1, C16_history_bdf1_mass_matrix, C16_history_bdf2, C16_history_bdf2_mass_matrix, C16_history_fully_discrete, C17_failed_step_restores_the_state, C17_solve_failure_is_translated, C17_fully_discrete, C18_state_refuted, C18_history_refuted, C19_first_run_partial, C19_second_run_refuted, C20_refuted, C46_velocity_failure_rolls_back, C46_velocity_failure_rolls_back_mass_matrix, C46_crank_nicolson_refuted, C47_constant_slope_bdf1, C47_constant_slope_crank_nicolson, C47_constant_slope_bdf2_uniform_partial, C47_bdf2_refuted, C48_to_target_bdf1, C48_n_steps_bdf1, C48_to_target_bdf2, C48_n_steps_bdf2, C48_to_target_crank_nicolson, C48_n_steps_crank_nicolson, C48_to_target_bdf1_mass_matrix, C48_n_steps_bdf1_mass_matrix, C48_to_target_bdf2_mass_matrix, C48_n_steps_bdf2_mass_matrix
* `PropLinSizes`: C89_debug_build_partial, C89_release_build_refuted, C89_different_vectors, C89_short_vectors, C89_long_vectors
* `PropLinearRom`: C39_linear_operator, C39_matrix_operator_partial, C39_matrix_forcing_refuted, C39_failure, C39_vector_operator
* `PropLinsolve`: C70_getrs, C70_potrs, C70_geqrf_partial, C70_geqrf_refuted, C71_debug_partial, C71_refuted, C72_direct, C72_iterative_partial, C72_direct_with_matrix, C72_iterative_with_matrix, C72_iterative_refuted
* `PropLinsolveMf`: C72_matrix_free, C72_matrix_free_nothing_given, C72_matrix_free_with_operator, C72_matrix_free_solves
* `PropLspg`: C34_default, C34_hyper_reduced, C34_masked, C34_scaled, C34_scaled_hyper_reduced, C34_fully_discrete, C34_galerkin_fully_discrete, C34_newton_asks, C34_least_squares_asks, C34_no_evaluation_refuted, C35_default_partial, C35_hyper_reduced_partial, C35_masked_partial, C35_scaled_partial, C35_scaled_hyper_reduced_partial, C35_fully_discrete_partial, C35_galerkin_fully_discrete_partial, C35_refuted, C35_stale_start, C35_stale_start_discrete, C36_read, C36_write_partial, C36_write_refuted, C36_wrong_entry_refuted, C36_shift, C36_shift_other_sizes, C38_hyper_reduced, C38_masked, C38_identity_bdf1, C38_identity_bdf2, C60_refuted, C61_default, C61_hyper_reduced, C61_scaled, C61_masked_refuted
* `PropMatrixFree`: C54_same_as_newton, C54_update_setting_ignored
* `PropMore`: C04_advance_to_target_point, C07_advance_with_step_recovery, C36_read_short, C62_lspg_moved_from
* `PropNonlin`: C21_least_squares_run, C21_newton_run, C21_least_squares_iterates, C21_newton_iterates, C21_least_squares_values, C21_newton_values, C21_least_squares_evaluations, C21_newton_evaluations, C22_least_squares, C22_newton_partial, C22_newton_refuted, C23_least_squares, C23_newton, C24_backtracking, C24_backtracking_newton, C24_evaluations, C24_evaluations_newton, C24_solve, C24_solve_newton, C25_refuted, C26_refuted, C26_newton_refuted, C26_armijo_updater_partial, C28_restarts, C28_restarts_growth, C29_refuted, C32_lookup, C32_printed, C32_stop_criterion, C49_newton, C49_least_squares_writes_nothing, C49_least_squares_refuted, C50_absolute_residual_partial, C50_relative_refuted, C51_refuted, C52_newton_partial, C52_least_squares_partial, C52_trial_state_refuted, C55_refuted, C56_refuted
* `PropQr`: C58_more_columns_refuted, C58_fewer_columns_refuted
* `PropRecon`: C42_semi_discrete, C42_fully_discrete, C42_count, C42_no_rows_refuted, C42_too_many_values_refuted, C42_too_few_values_refuted, C66_refuted, C65_six_digits_partial, C65_relative_error_partial, C65_refuted
* `PropReuse`: C74_least_squares, C74_newton
* `PropRomExact`: C75_explicit, C75_explicit_mass_matrix, C75_implicit, C75_any_basis_refuted
* `PropRomRun`: C79_lspg_values, C79_galerkin_values, C79_lspg_failures, C79_galerkin_failures, C80_n_steps_lspg, C80_to_target_lspg, C80_n_steps_scaled, C80_to_target_scaled, C80_n_steps_masked, C80_to_target_masked, C80_n_steps_hyper_reduced, C80_to_target_hyper_reduced, C80_n_steps_scaled_hyper_reduced, C80_to_target_scaled_hyper_reduced, C80_n_steps_fully_discrete, C80_to_target_fully_discrete, C80_n_steps_galerkin_fully_discrete, C80_to_target_galerkin_fully_discrete
* `PropSolverObjects`: C84_named_objects, C84_other_system, C84_temporary_linear_solver, C84_copy, C84_move, C84_moved_from, C84_system_destroyed, C84_linear_solver_destroyed, C84_temporary_system_refuted, C84_compact_temporary_refuted
* `PropSteady`: C67_residual_and_jacobian, C67_fom_failure, C67_jacobian_only_on_request, C69_same_index_partial, C69_missing_index_refuted, C69_hyper_reduced
* `PropStencil`: C73_static, C73_dynamic_partial, C73_dynamic_refuted, C73_copy_partial, C73_copy_refuted, C73_outside, C73_default_size_refuted
* `PropSubspace`: C33_values, C33_temporaries, C33_copies, C33_handles_partial, C33_handles_untouched_refuted, C33_handles_fixed_refuted, C33_linear_subspace, C59_basis_affine_partial, C59_basis_refuted

**`ClassicalDedekindReals.sig_forall_dec`; `FunctionalExtensionality.functional_extensionality_dep`** (39 theorems)

* `PropAdvance`: C02_exact_times, C05_terminates, C05_number_of_steps, C05_number_of_reports, C05_unset_step_size_refuted, C07_zero_minimum_refuted, C07_sizes_are_geometric
* `PropGalerkin`: C37_jacobian_is_derivative, C37_mass_matrix_jacobian_is_derivative, C37_steady_jacobian_is_derivative, C37_steady_apply_is_derivative
* `PropGauss`: C96_every_tolerance, C96_geometric
* `PropImplicit`: C15_jacobian_bdf1, C15_jacobian_bdf2, C15_jacobian_crank_nicolson, C15_jacobian_bdf1_mass_matrix, C15_jacobian_bdf2_mass_matrix
* `PropLinGlue`: C85_getrs, C85_potrs, C85_geqrf, C85_eigen_direct, C85_root_finders, C85_least_squares
* `PropLm`: C92_every_tolerance
* `PropLspg`: C38_bdf1, C38_bdf2
* `PropMore`: C21_default_least_squares, C21_default_newton
* `PropNewton`: C90_every_tolerance
* `PropNonlin`: C24_never_increases, C24_never_increases_newton, C25_partial, C25_newton_partial, C28_schedule1, C28_schedule2
* `PropRomRun`: C79_lspg_jacobian_is_derivative, C79_galerkin_jacobian_is_derivative
* `PropSteady`: C67_jacobian_is_derivative

**`ClassicalDedekindReals.sig_forall_dec`; `ClassicalDedekindReals.sig_not_dec`; `FunctionalExtensionality.functional_extensionality_dep`** (125 theorems)

* `PropDissip`: C77_bdf1, C77_bdf2, C77_crank_nicolson, C77_bdf1_error, C77_bdf2_error, C77_crank_nicolson_error, C77_bdf1_mass_matrix, C77_bdf2_mass_matrix
* `PropGalLin`: C83_n_steps, C83_to_target, C83_exact, C83_dissipative, C83_stable_bdf1, C83_stable_bdf2, C83_stable_crank_nicolson, C83_error_bdf1, C83_error_bdf2, C83_error_crank_nicolson
* `PropGalNewton`: C93_n_steps, C93_to_target
* `PropGauss`: C96_gauss_newton, C96_gauss_newton_finds
* `PropHouse`: C87_factors, C87_least_squares, C87_gauss_newton, C88_copy_refuted, C88_solution_refuted
* `PropLinGlue`: C85_newton, C85_gauss_newton, C85_n_steps, C85_to_target, C85_n_steps_mass_matrix, C85_to_target_mass_matrix
* `PropLinRun`: C82_n_steps, C82_to_target, C82_n_steps_mass_matrix, C82_to_target_mass_matrix, C82_dissipative, C82_stable_bdf1, C82_stable_bdf2, C82_stable_crank_nicolson, C82_error_bdf1, C82_error_bdf2, C82_error_crank_nicolson
* `PropLm`: C92_converges, C92_finds, C92_matrices
* `PropLspgBasis`: C101_same_trial_space, C101_dissipative
* `PropLspgGn`: C97_n_steps, C97_to_target
* `PropNewton`: C90_newton, C90_newton_finds, C90_gauss_newton, C90_gauss_newton_finds
* `PropNewtonRun`: C91_newton, C91_newton_finds, C91_n_steps, C91_to_target, C91_bounded
* `PropNonlin`: C27_one_iteration, C27_solve, C29_gain_partial, C30_gauss_newton, C30_qr_is_normal_equations, C30_weighted, C30_compact_weighted, C30_levenberg_marquardt, C30_identity_weight, C30_compact_is_weighted, C31_newton, C31_gauss_newton, C53_bdf1, C53_bdf2, C53_bdf1_mass_matrix, C53_bdf2_mass_matrix
* `PropQr`: C40_factorisation, C40_least_squares_solution, C40_never_fails, C40_gauss_newton, C40_newton, C57_overwritten, C57_refuted, C58_same_columns_partial
* `PropRomError`: C78_one_step_schemes, C78_adams_bashforth, C78_forward_euler_a_posteriori, C78_orthonormal_basis, C78_mass_matrix, C78_mass_matrix_adams_bashforth, C78_bdf1, C78_bdf2, C78_crank_nicolson, C78_rom_stable_bdf1, C78_rom_stable_bdf2, C78_rom_stable_crank_nicolson
* `PropRomLs`: C81_n_steps, C81_to_target
* `PropRomVar`: C98_scaled_n_steps, C98_scaled_to_target, C98_masked_n_steps, C98_masked_to_target, C98_hyper_reduced_n_steps, C98_hyper_reduced_to_target, C98_scaled_hyper_reduced_n_steps, C98_scaled_hyper_reduced_to_target, C98_fully_discrete_n_steps, C98_fully_discrete_to_target, C98_galerkin_fully_discrete_n_steps, C98_galerkin_fully_discrete_to_target
* `PropStability`: C76_one_step_schemes, C76_adams_bashforth, C76_mass_matrix, C76_mass_matrix_adams_bashforth, C76_initial_state, C76_initial_state_adams_bashforth, C76_convergence, C76_convergence_adams_bashforth
* `PropSteady`: C68_lspg_gauss_newton, C68_galerkin_newton
* `PropSteadyNl`: C99_galerkin_newton, C99_galerkin_quasi_optimal, C99_galerkin_error, C99_lspg_gauss_newton, C99_lspg_error

**`ClassicalDedekindReals.sig_forall_dec`; `ClassicalDedekindReals.sig_not_dec`; `Classical_Prop.classic`; `FunctionalExtensionality.functional_extensionality_dep`** (37 theorems)

* `PropDissip`: C77_backward_euler_error
* `PropGalNewton`: C93_dissipative, C93_error_bdf1, C93_error_bdf2, C93_error_crank_nicolson
* `PropGauss`: C96_lipschitz
* `PropLspgErr`: C100_n_steps, C100_to_target
* `PropLspgGn`: C97_fom_step
* `PropNewton`: C90_lipschitz
* `PropNewtonBdf2`: C91_bounded_bdf2
* `PropNewtonRun`: C91_dissipative, C91_error_bdf1, C91_error_bdf2, C91_error_crank_nicolson
* `PropOrder`: C94_forward_euler, C94_adams_bashforth, C94_ssp_runge_kutta_3, C94_runge_kutta_4, C94_bdf1, C94_bdf2, C94_crank_nicolson, C94_newton_bdf1, C94_newton_bdf2, C94_newton_crank_nicolson
* `PropRomOrder`: C95_forward_euler, C95_adams_bashforth, C95_ssp_runge_kutta_3, C95_runge_kutta_4, C95_bdf1, C95_bdf2, C95_crank_nicolson, C95_newton_bdf1, C95_newton_bdf2, C95_newton_crank_nicolson
* `PropStability`: C76_forward_euler_converges
* `PropSteadyNl`: C99_lspg_fom_solution

The examples in `Ex*.v` and lemmas about binary64 use stdlib `SpecFloat`, which has no axioms.
`Coq.Logic.Classical_Prop.classic` comes with `Reals` but no property theorem depends on it.

## 6. Wrong programs

`seeded/LOG.jsonl` records edits of the model in a scratch copy, each the way a realistic bug would
change the program, and the theorems whose proof no longer goes through. The whole development is
rebuilt after each edit; a lemma that fails is admitted there so that later files are still tried, and
a theorem counts as failed if its own proof or a lemma it rests on failed. So `theorems_failed` can
also include theorems whose statement stays true of the edited model and only the proof needs repair.
What the method looks for is the opposite: an edit after which the claim it breaks still proves.
Those theorems were tightened (`theorems_tightened`).
