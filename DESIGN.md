# Formal model of gsStructuralAnalysis: design

Properties: `properties.jsonl` (ids C01...). Model and proofs: `rocq/theories`.
Status per property and exact theorem names: `MANIFEST.json`. Wrong programs tried
against the theorems: `seeded/LOG.jsonl`.

## Method

* The code in /repo is read as text. Each C++ function becomes one total Gallina
  function with a comment that cites file and lines. Loops become structural
  recursion, folds or recursion on fuel (running out of fuel is a separate outcome).
* Exceptions (`throw 1/2/3`), failed `GISMO_ASSERT`/`GISMO_ENSURE` and undefined
  behaviour (reads out of range, uninitialised members, integer division by zero) are
  separate outcomes of the model, never a normal-looking value.
* User callbacks (residual, Jacobian, mass, damping, force, linear solver, eigen solver,
  optimiser, arc-length solver seen by the parallel driver, order of the answers of the
  workers) are universally quantified arguments. Where a theorem needs a fact about one
  of them (for example "the linear solve is exact") it is a hypothesis of that theorem,
  and an example beside the theorem meets it.
* A property that is false of the faithful model gets a theorem `..._refuted`, which
  gives a witness of the failure, and, where something remains true, a theorem
  `..._partial` that says under which extra condition it holds. Its status is "partial".
* Theorems are stated through the modelled API (setters, step, solve, getters) and plain
  mathematics. Evaluations of callbacks are visible through an event log in the ALM and
  static models.

## Trusted base

1. Coq 8.16.1's kernel and the reading of the statements.
2. The axioms of Coq's standard library listed below, through `Reals`; no axiom of our
   own and none of another library. What Print Assumptions lists for each theorem of the
   manifest:

* nothing ("Closed under the global context"):
  C13_container_empty, C13_first_branch_partial, C60_rectangular_partial, C81_digits
* `ClassicalDedekindReals.sig_forall_dec`:
  C122_tutorial_partial, C45_composite, C45_exception, C47_failed_step, C55_const, C55_step_partial, C60_refuted, C81_refuted
* `ClassicalDedekindReals.sig_forall_dec`, `FunctionalExtensionality.functional_extensionality_dep`:
  C01_active_jobs_disjoint, C01_segments_never_overlap, C02_export_ordered_complete, C03_submit_accepts, C03_submit_keeps_solutions, C04_submit_changes_one_length, C05_job_data_stays_valid, C06_ids_never_reused, C07_levels_bounded, C08_refinement_terminates, C08_refinement_terminates_start, C09_errors_decide_refinement, C101_stable, C101_undamped, C102_energy, C102_stable, C103_explicit, C103_explicit_grows, C103_implicit, C103_implicit_stable, C104_energy, C104_stable, C10_lookup_by_time_partial, C10_lookup_by_time_refuted, C10_unknown_time_reports_first_point, C11_lookup_by_parameter, C120_refuted, C120_solutions_partial, C120_terminates, C122_beam, C122_shell_partial, C122_times, C123_terminates, C124_modal_partial, C124_refuted, C125_loads_partial, C125_refuted, C129_terminates, C129_written_partial, C12_queries_pure_partial, C12_query_unknown_id_refuted, C135_refuted, C135_release_refuted, C135_rows_partial, C135_terminates, C137_loadsteps_partial, C137_mesh, C137_refuted, C137_stall_refuted, C137_terminates, C137_tries_partial, C137_unsolved_refuted, C138_refuted, C138_rows_partial, C138_steps_refuted, C138_terminates, C13_first_branch_refuted, C14_answer_goes_to_its_branch, C14_jobs_answered_once, C15_dispatch_limit, C15_serial_parallelSolve, C16_initiation_refuted, C16_serial_solve_bounded_partial, C17_branches_stay_valid, C17_new_branch, C17_new_end_point, C17_solutions_stay, C18_halving_conserves_length, C19_correction_result_accepted, C19_initiation_acceptable, C19_worker_answer_acceptable, C20_points_per_branch_partial, C20_refuted, C20_serialSolve_points, C21_level_lists_partial, C21_refuted, C22_branches, C22_serialSolve_records, C34_isStable_refuted, C42_peak, C46_opt_partial, C46_refuted, C47_load_sum, C48_newmark, C49_energy, C50_explicit_partial, C50_rk4, C51_balance, C51_exact, C51_quadratic, C52_polynomial, C52_taylor, C54_linear, C55_history, C56_mismatch, C57_refuted, C57_spectrum, C58_refuted, C61_refuted, C61_translation_partial, C62_connected_partial, C62_joints_partial, C62_refuted, C63_answers_partial, C63_refuted, C63_session_partial, C64_pop_total, C65_main_never_fails, C66_second_run_refuted, C67_solve_with_existing_branch_refuted, C68_only_converged_stored_partial, C68_only_converged_stored_refuted, C69_correction_terminates, C69_initiation_terminates, C70_last_on_reference_refuted, C71_serialSolve_one_step_refuted, C71_serialSolve_prepares_partial, C75_balance_partial, C79_buckling, C80_refuted, C84_add_partial, C84_new_value_used_refuted, C85_in_support_refuted, C85_nearest_param_partial, C85_straight_line, C86_at_parametric_times_refuted, C86_plane_problem_refuted, C86_slice_at_anchors_partial, C87_added_point_ignored_partial, C87_added_point_used_refuted, C89_indicator_partial, C89_missed_refuted, C89_stale_refuted, C92_wilson_linear_partial, C94_parallelSolve, C94_serial_new_branch, C94_solve_partial, C95_length_after_initiation, C95_serial_branch_partial, C97_ended_complete, C97_limit_refuted, C97_order_partial, C97_serial_partial
* `ClassicalDedekindReals.sig_forall_dec`, `ClassicalDedekindReals.sig_not_dec`, `FunctionalExtensionality.functional_extensionality_dep`:
  C100_next_step_partial, C100_recorded_partial, C100_refuted, C101_sharp, C104_sharp, C109_newton, C110_newmark, C111_implicitEuler, C112_converges, C113_short_load_steps, C114_points, C114_refuted, C114_tolerances_partial, C115_first_point, C115_terminates, C116_converged_is_success_partial, C116_refuted, C117_points_partial, C117_refuted, C118_first_point, C118_terminates, C119_frustrum_points_partial, C119_refuted, C119_repeated_refuted, C119_snapping_points_partial, C121_linear, C121_newton_partial, C121_refuted, C122_refuted, C123_first_point, C123_forever, C126_limit_point, C126_points_partial, C126_refuted, C127_again, C128_files_partial, C128_refuted, C129_refuted, C130_equilibrium, C130_limit, C130_rate, C130_success, C131_lowest_partial, C131_refuted, C132_bisection_accuracy, C133_full_load, C133_terminates, C134_points_partial, C134_refuted, C134_stop_partial, C134_terminates, C136_frustrum, C136_points_partial, C136_refuted, C136_strain, C136_terminates, C23_failed_step_keeps_solution, C24_refuted, C24_success_meets_tolerances_partial, C25_refuted, C25_status_kind_partial, C25_uninitialised, C26_length_factor, C26_length_positive, C27_iterate_on_constraint, C27_real_root, C27_step_distance, C28_complex_on_constraint_partial, C28_refuted, C29_chosen_root_partial, C29_refuted, C30_riks_increment, C30_riks_step, C31_consistent_increment, C32_load_control_partial, C32_load_control_run_partial, C32_refuted, C33_guess_once_partial, C33_refuted, C34_change_partial, C34_refuted, C35_refuted, C35_same_results_partial, C36_refuted, C36_restores_settings_partial, C36_status_refuted, C37_search, C37_switch_branch, C38_newton_success_partial, C38_refuted, C39_contained, C39_refuted, C39_statuses_partial, C40_linear_partial, C40_refuted, C41_load_partial, C41_refuted, C42_energy, C42_history, C42_rest, C43_refuted, C43_success_partial, C44_refuted, C44_reset_partial, C45_newton_chain, C47_newton, C50_bathe_loose, C50_bathe_partial, C50_newmark, C50_refuted, C53_refuted, C53_wilson_partial, C54_nonlinear_partial, C54_refuted, C55_cache, C55_exception_partial, C55_refuted, C56_forcing, C56_packing, C58_exception_partial, C59_bound, C59_eigenvector_partial, C59_power, C59_refuted, C72_located_point_partial, C72_refuted, C73_extended_iteration, C74_bifurcation_test, C75_refuted, C75_stale, C76_newmark, C76_refuted, C77_callback_refuted, C77_sequential, C78_factor_partial, C78_refuted, C80_kept_partial, C82_between_partial, C82_degree_one_partial, C82_fit_at_anchors_partial, C82_through_data_refuted, C83_equidistant, C83_knot_vector, C84_no_time_zero_refuted, C88_composite_refuted, C88_control_reset_refuted, C88_control_setZero_partial, C88_newton_reset_partial, C88_status_refuted, C90_crisfield_refuted, C90_riks_correction_partial, C90_riks_initiation_partial, C90_riks_main_never_fails_partial, C90_solver_error_refuted, C91_crisfield_again, C91_crisfield_first_partial, C91_crisfield_first_refuted, C91_first_predictor, C91_retry_same_start, C91_secant_partial, C91_secant_refuted, C91_setLength_ignored, C92_wilson_nonlinear_partial, C93_bathe, C93_implicitEuler, C93_newmark, C94_length_refuted, C94_limit_refuted, C95_refuted, C95_solver_length_partial, C98_consistent_refuted, C98_correction_partial, C98_crisfield_refuted, C98_curves_partial, C98_step_partial, C99_bisection
* `ClassicalDedekindReals.sig_forall_dec`, `Classical_Prop.classic`, `FunctionalExtensionality.functional_extensionality_dep`:
  C96_network, C97_network_partial
* `ClassicalDedekindReals.sig_forall_dec`, `ClassicalDedekindReals.sig_not_dec`, `Classical_Prop.classic`, `FunctionalExtensionality.functional_extensionality_dep`:
  C105_newmark, C106_implicit, C107_rk4, C108_bathe

3. The model is the code, up to the simplifications below and in the comments of the
   definitions.

### Simplifications

* Scalars are Coq reals (`R`): no rounding, no overflow. Where the code compares a
  quotient whose denominator may be zero, the model follows IEEE: the comparison of NaN
  or of infinity with a tolerance is false (`ratioLt`, `None` results).
* Vectors are elements of an arbitrary real inner-product space (record `VS`), matrices
  are functions or elements of an arbitrary type with operations (linear where a theorem
  needs it). R and R^n serve for examples and refutations.
* `index_t`/`size_t` counters are `nat` or `Z` without wrap-around, except where the
  wrap-around is what the property is about.
* `std::map` is an association list sorted by key, with the three access functions that
  differ: `insert` (keeps an old value), `m[k]=v` (overwrites), reading `m[k]` (inserts a
  default value when absent).
* `gsKnotVector` (outside this repository) is a sorted list with multiplicity: `insert`
  is sorted insertion and `addConstant(start,c)` adds `c` to all knots `>= start`.
* The driver theorems (C14-C17, C65) see the workers as a set of running jobs from which
  an arbitrary one answers next. The messages themselves are modelled in `MPI.v` between
  main and one worker (non-blocking sends, tags, buffered or synchronous delivery, every
  interleaving) and in `MPIMain.v` between main and all workers, with the receive from any
  source; C96 shows that the two views of the drivers agree.

### Facts assumed of libraries (as hypotheses of the theorems that use them)

* `fitLaw`, `luLaw` (C82, C86): gsFitting with constraints and Eigen's LU return
  coefficients that satisfy the constraints they were given.
* `selects` (C89): Spectra's shift-and-invert mode returns the eigenvalues x with the
  largest 1/(x-shift).
* C57, C79: an eigen solver that answers returns eigenpairs of the pair it was given.
* Linear solves are exact where a theorem says so; convergence theorems only use the
  answers the solver gave.

## What is modelled

| source (src/) | theory | not modelled |
|---|---|---|
| gsALMSolvers/gsAPALMData | APALMData | printing, XML, `setData` on filled data |
| gsALMSolvers/gsAPALMDataContainer.h | APALMDriver | printing |
| gsALMSolvers/gsAPALM | APALMDriver, APALMExec (drivers), APALMWorker (jobs, serialSolve, output lists), APALMSolver (its use of an arc-length solver), MPI (messages), MPIMain (all processes on the network) | printing, communicators, timing |
| gsALMSolvers/gsALMBase, the four methods, gsALMHelper.h | ALMBase, ALMSingular | printing of iterations |
| gsALMSolvers/gsAPALMBase | - | legacy class: it calls members that gsAPALMData does not have (`addJobs`, a six-fold `pop`), so it cannot be instantiated |
| gsStaticSolvers | Static, StaticMore | printing; the optimisers behind gsStaticOpt |
| gsDynamicSolvers | Dynamic, XBraid | printing; the XBraid library and gsXBraid's buffer packing |
| gsEigenSolvers | Eigen | Eigen's and Spectra's internals; printing |
| gsStructuralAnalysisTools/gsStructuralAnalysisUtils.h | Tools | file system errors |
| gsStructuralAnalysisTools/gsPanelCreator | Tools | computeTopology (library) |
| gsStructuralAnalysisTools/gsSolutionFitter.h, gsSpaceTimeFitter.h | Fitter | the spatial basis of gsSpaceTimeFitter |
| gsStructuralAnalysisTools/gsStructuralAnalysisTypes.h | Status | the type aliases |
| the loops of the programs: benchmarks/ and examples with an arc-length solver (ALMLoop, with SingularPoint ALMLoop4), solvers/quasistatic_shell_XML.cpp and its multipatch variant (ALMLoop2), example_PinchedMembrane_DWR (ALMLoop6), benchmark_Beam, benchmark_Balloon, benchmark_UniaxialTension, benchmark_MaterialTest, benchmark_Cylinder (ALMLoop7), snapping_example, snapping_example3D, snapping_example_shell, snapping_element, snapping_element3D, snapping_element_shell, benchmark_FrustrumALM, benchmark_Wrinkling with SingularPoint (ALMLoop8), benchmark_Roof_DWR and the post-buckling part of benchmark_Wrinkling_DWR (Adapt), its pre-buckling loop (PreLoop), benchmark_FrustrumDC, snapping_example_shell_DC, benchmark_cylinder_DC (StaticLoop), example_ShearWrinkling (StaticLoop4), solvers/static_shell_XML.cpp and its multipatch variant (StaticProg), the dynamic examples and tutorials (DynLoop), the modal and buckling programs (EigenProg) | ALMLoop, ALMLoop2, ALMLoop4, StaticLoop, StaticProg, DynLoop, EigenProg | everything else in these programs: geometry, assembly, plots and files |

Not modelled anywhere: rounding, G+Smo geometry and I/O, memory ownership and copy
constructors, timing, and of the example and benchmark programs everything but the loops
listed above.

Files without property theorems: `Prelude`, `VS` (vectors), `RunTac`, `StaticRun`,
`DynRun`, `ALMRun` (evaluation of closed examples), `*Proofs`, `*Inv`, `*Hist`, `*Sched`,
`*Lemmas`, `ALMStep`, `ALMLog`, `ALMPoints`, `ALMVerbose`, `MPINet`, `MPIPhase`, `MPINetN`, `MPIMainProofs`, `APALMOrder`, `APALMOrderExec`, `ALMRestart` (lemmas),
`APALMSpec` (vocabulary for the statements).

## Plan per property

| id | model and method of proof | status | theorems in |
|----|---------------------------|--------|-------------|
| C01 | APALMData; invariant over all operations, induction over histories | proved | Props_APALMData |
| C02 | APALMData; invariant over all operations, induction over histories | proved | Props_APALMData |
| C03 | APALMData; invariant over all operations, induction over histories | proved | Props_APALMData |
| C04 | APALMData; invariant over all operations, induction over histories | proved | Props_APALMData |
| C05 | APALMData; invariant over all operations, induction over histories | proved | Props_APALMData |
| C06 | APALMData; invariant over all operations, induction over histories | proved | Props_APALMData |
| C07 | APALMData; invariant over all operations, induction over histories | proved | Props_APALMData |
| C08 | APALMData; a measure that decreases with every completed job | proved | Props_APALMData |
| C09 | APALMData; invariant over all operations, induction over histories | proved | Props_APALMData |
| C10 | APALMData; counterexample (operator[] inserts), lookup lemma for stored times | partial | Props_APALMData |
| C100 | ALMSingular; frame of the search (previous sign), C34; counterexample with one rejected trial | partial | Props_ALMBisect, Props_ALMBisect2 |
| C101 | Dynamic; C48, energy identity in an arbitrary inner-product space, induction over steps | proved | Props_Dynamic8 |
| C102 | Dynamic; C48 and C51, algebraic identity for one step with any gamma, induction over steps | proved | Props_Dynamic8 |
| C103 | Dynamic; C54, energy identities, induction over steps | proved | Props_Dynamic8 |
| C104 | Dynamic; Taylor form of a step, energy identity, Cauchy-Schwarz in the stiffness, induction over steps | proved | Props_Dynamic8 |
| C105 | Dynamic; defect of the trapezoidal rule by monotone comparison functions, error estimate in the energy norm, induction over steps | proved | Props_Dynamic9 |
| C106 | Dynamic; defect of the backward difference, error estimate in the energy norm, induction over steps | proved | Props_Dynamic9 |
| C107 | Dynamic; Taylor remainder, C104 for the error, induction over steps | proved | Props_Dynamic9 |
| C108 | Dynamic; the error is the free step of the old error (C102) plus a remainder driven by the defects of the two sub-steps, each bounded by Taylor comparison | proved | Props_Dynamic10 |
| C109 | Static; invariant of the Newton loop (increments shrink quadratically, total update stays near the first increment) | proved | Props_Static6 |
| C11 | APALMData; invariant over all operations, induction over histories | proved | Props_APALMData |
| C110 | Dynamic, NewtonConv; invariant of the loop (increments of the acceleration shrink quadratically) | proved | Props_Dynamic11 |
| C111 | Dynamic, NewtonConv; as C110, in the space of pairs (U, V) | proved | Props_Dynamic11 |
| C112 | Section Conv of Props_ALMConverge.v: one pass of stepLoop is one Newton step for the pair (residual, arc-length equation) (iter_run, alm_body); the generic estimates of NewtonConv.v then give the quadratic decrease (alm_loop, alm_first), and C112_converges unfolds step() around it. The predictor is any successful run of the modelled one; the first increment is bounded by beta times the defect, so nothing about it is assumed. Example: Riks on u + u^2/100 = L. | proved | Props_ALMConverge |
| C113 | `Props_ALMConverge2.v`: the trial point of a load step of length l misses the equilibrium by O(l^2) (Taylor bound of `regularALM`), so C112 applies with one iteration once l is small enough; l0 is the minimum of six explicit bounds. | proved | Props_ALMConverge2 |
| C114 | `ALMLoop.v` models the `while` loop over the load steps of the programs (SingularPoint off), with each call of `step` the model of `ALMBase.v`; `Props_ALMLoop.v`: an invariant of the loop (the points written are joined by steps of length dLb / 2^j), and C24, C25 and C32 for each step. | partial | Props_ALMLoop |
| C115 | `Props_ALMLoop2.v`: induction on the points missing and on the halvings left; `load_total` (no division by zero under load control) and C113 give the first point. | proved | Props_ALMLoop2 |
| C116 | `Props_ALMLoop3.v`: m_converged is followed through step_ (false until iterationFinish, which nothing that is caught follows). | partial | Props_ALMLoop3 |
| C117 | `ALMLoop2.v` models the loop of the quasistatic programs with the search for singular points (`ALMSingular.v`); `Props_ALMLoop3.v`: invariant of the loop, with C116, C24 and C32 for each step; the counterexample is evaluated. | partial | Props_ALMLoop3 |
| C118 | `Props_ALMLoop3.v`: as C115; the first point from C113, `load_total` and `stab_total` (computeStability ends with a status when there is a tangent matrix). | proved | Props_ALMLoop3 |
| C119 | StaticLoop.v models the loops of benchmark_FrustrumDC.cpp and snapping_example_shell_DC.cpp around ctlStep; an invariant of the passes (history of control, increments dL0/2^j, last point written) with C47_newton gives the shape of the written points; the refutations evaluate the loops on a spring whose assembly fails for large imbalance and on one with a singular tangent. | partial | Props_StaticLoop |
| C12 | APALMData; counterexample (operator[] inserts), purity for active ids | partial | Props_APALMData |
| C120 | cylPass/cylRun in StaticLoop.v model the loop of benchmark_cylinder_DC.cpp with an arbitrary solver; the measure 4 (16 (L - D) / dL0 + number of checkpoints left) + halvings left decreases in every pass. | partial | Props_StaticLoop |
| C121 | StaticProg.v puts the linear, dynamic relaxation and Newton solvers of the program into the composite solver of Static.v (a sum type for the states); C45_composite and C38_newton_success_partial give the residual; the linear part is followed by computation. | partial | Props_StaticProg |
| C122 | DynLoop.v models the time loops around dynStep and dynConst of Dynamic.v with an arbitrary _step; induction on the number of steps. | partial | Props_DynLoop |
| C123 | StaticLoop.v and Static.v. Termination by induction on the accepted steps and the remaining halvings; the first point by the Newton convergence theorem of C109 applied at the origin, whose radius gives the length below which a step succeeds; the endless loop by induction on the fuel. | proved | Props_StaticLoop2 |
| C124 | EigenProg.v models what the programs do after assembly, on Eigen.v; C57 for the computed modes, bounds on the number of values for the reads. | partial | Props_EigenProg |
| C125 | EigenProg.v; C57 on the matrices the programs pass to gsBucklingSolver, algebra for the doubly subtracted stiffness, counterexample in one dimension. | partial | Props_EigenProg |
| C126 | ALMLoop4.v models the loop with the search on ALMBase.v and ALMSingular.v; invariant over the passes, C37 for switchBranch, counterexample with a spring of negative stiffness. | partial | Props_ALMLoop4 |
| C127 | Relational frame of ALMRestart.v (what step() reads) together with a lemma that a call that throws leaves `core` unchanged; induction on the number of repeated calls. | proved | Props_ALMLoop5 |
| C128 | ALMLoop5.v models the loop of the two arc-length tutorials, which ignores the status of step(). Induction on the passes: C24 for the passes that succeed, C127 for all passes after the first failure. | partial | Props_ALMLoop5 |
| C129 | StaticLoop3.v models the load-stepping loop of benchmark_Pillow with an arbitrary solver as oracle (a state, and for each load factor converged or not). Termination by a measure (failures left, load steps left); what is written by an invariant over the trace of rounds. | partial | Props_StaticLoop3 |
| C13 | APALMDriver container; induction over the list of branches, counterexample | partial | Props_APALMDriver |
| C130 | Props_Static7.v, on the model of gsStaticDR in Static.v. In the space with the inner product of the mass the scheme reads v' = (1-g) v - A e, e' = e + v'. The quadratic form |v|^2 + 2/(2-g) <A e, e-v> decreases by g/(2-g) |v+v'|^2 in each step and by a fixed factor in two steps, which gives the rate; the test of solve() then holds eventually. Beyond the limit the component in the mode has a left eigenvector with factor below -1, which the launch of _start does not cancel. | proved | Props_Static7 |
| C131 | ePower on an abstract inner product space; in the inner product of A the iterates stay in a cone around p which shrinks by r in every step (gap of the Rayleigh quotient, by polarisation), so the step of the normalised iterates shrinks, and conversely a small step bounds the rest of the vector. Refuted: start vector (1,1) with the eigenvector (1,-1); eigenvalues 1 and 1000/999. | partial | Props_Eigen2 |
| C132 | ALMSingular.v bisectionLoop/bisectionSolve with the load control step of ALMStep.v; Props_ALMBisect3.v: invariant of the loop (the load of the accepted point lies before lc and lc lies within twice the current length), every two trials either halve the length or advance; the predicate passes describes the problem around lc and is proved for a pitchfork. | proved | Props_ALMBisect3 |
| C133 | ALMLoop6.v: both loops pass by pass, over the step() of ALMBase.v. Invariants: in the first loop the solver is at (solVector, L) and (Uold, Lold) lies before the full load once a pass was made; in the second loop dL is at most 1-L. End of the second loop: double induction on the remaining load in units of eps/2 and on the number of halvings. | proved | Props_ALMLoop6 |
| C134 | ALMLoop7.v: the loops pass by pass over step() of ALMBase.v; Props_ALMLoop7.v: invariant of the passes (lengths d/2^j with j never decreasing, chain of successful steps with the tolerances of C24), end by induction on the points left and the halvings left. Refuted by evaluation of a spring of negative stiffness with SingularPoint and of a spring with MaxIter = 1. | partial | Props_ALMLoop7 |
| C135 | StaticLoop4.v: the loop pass by pass over the step() of gsControlDisplacement (Static.v); Props_StaticLoop4.v: invariant of the passes (load of the control, D, the increment, the rows, the targets left and visited), induction on the passes; end in debug builds by counting halvings. Refuted for every solver that succeeds: the targets run out and front() of the empty vector is read. | partial | Props_StaticLoop4 |
| C136 | ALMLoop8.v: one model of the six loops pass by pass over step() of ALMBase.v, with switches for the two tests (converged() or two statuses), the variable bisected and SingularPoint. Props_ALMLoop8.v: invariants of the passes for the rows and strains and for the chain of successful steps; end by induction on the passes left. Refuted by evaluation. | partial | Props_ALMLoop8 |
| C137 | Adapt.v: the load step and the run over it, pass by pass; mesher, error estimator and arc-length step are oracles. Props_Adapt.v: invariant of the passes (length, counter, last error, band), induction on the passes; end by counting halvings. Refuted for every number of failures and iterations by a family of programs, for every program whose initial error is in the band, and for every program that cannot refine. | partial | Props_Adapt |
| C138 | PreLoop.v: the loop pass by pass, solver and stability test are oracles. Props_PreLoop.v: invariant of the passes (index, length, rows, strain), induction on the passes; end by counting accepted and failed steps of the reachable states. Refuted for every program without a bifurcation, and for every pair of positive maxSteps. | partial | Props_PreLoop |
| C14 | APALMDriver, APALMExec; invariant of the transition system of main with arbitrary order of answers | proved | Props_APALMDriver |
| C15 | APALMDriver, APALMExec; invariant of the transition system of main with arbitrary order of answers | proved | Props_APALMDriver |
| C16 | APALMExec, APALMWorker; measure on the serial loop; counterexample with a solver that always fails | partial | Props_APALMDriver, Props_APALMWorker |
| C17 | APALMDriver, APALMExec; invariant of the transition system of main with arbitrary order of answers | proved | Props_APALMDriver |
| C18 | APALMWorker; loop invariant of _correction, induction on the failure pattern | proved | Props_APALMWorker |
| C19 | APALMWorker; loop invariant and triangle inequality | proved | Props_APALMWorker |
| C20 | APALMDriver, APALMWorker; counting, counterexample | partial | Props_APALMDriver, Props_APALMWorker |
| C21 | APALMWorker _finalize; list lemma, counterexample | partial | Props_APALMWorker |
| C22 | APALMWorker serialSolve; induction over steps | proved | Props_APALMWorker |
| C23 | ALMBase _step, generic in the method; case analysis over all exits, induction on iterations, event log | proved | Props_ALMStep |
| C24 | ALMBase _step, generic in the method; case analysis over all exits, induction on iterations, event log | partial | Props_ALMStep |
| C25 | ALMBase _step, generic in the method; case analysis over all exits, induction on iterations, event log | partial | Props_ALMStep |
| C26 | ALMBase; real arithmetic on the update of the length | proved | Props_ALMStep |
| C27 | ALMBase Crisfield; algebra of the quadratic constraint, induction on iterations | proved | Props_ALMMethods |
| C28 | ALMBase Crisfield; algebra, counterexample by evaluation | partial | Props_ALMMethods |
| C29 | ALMBase Crisfield; algebra, counterexample by evaluation | partial | Props_ALMMethods |
| C30 | ALMBase Riks; algebra, induction on iterations | proved | Props_ALMMethods |
| C31 | ALMBase consistent Crisfield; algebra | proved | Props_ALMMethods |
| C32 | ALMBase load control; induction on iterations | partial | Props_ALMStep |
| C33 | ALMBase; case analysis over the exits, counterexample by evaluation | partial | Props_ALMStep |
| C34 | ALMBase stability; case analysis, counterexamples | partial | Props_ALMStab |
| C35 | ALMBase; relation between runs with and without output, induction over calls | partial | Props_ALMStab |
| C36 | ALMSingular; case analysis over the exits of the search | partial | Props_ALMSingular |
| C37 | ALMSingular switchBranch; algebra | proved | Props_ALMSingular |
| C38 | Static Newton; loop induction with event log | partial | Props_Static |
| C39 | Static Newton; loop induction with event log | partial | Props_Static |
| C40 | Static Newton; two iterations for an affine residual | partial | Props_Static |
| C41 | Static; evaluation log | partial | Props_Static |
| C42 | Static dynamic relaxation; loop induction, scheme as an independent recursion | proved | Props_Static2, Props_Static4 |
| C43 | Static dynamic relaxation; loop induction, scheme as an independent recursion | partial | Props_Static2 |
| C44 | Static dynamic relaxation; relation between states, counterexample | partial | Props_Static2 |
| C45 | Static composite; induction over the list of solvers | proved | Props_Static3 |
| C46 | Static optimisation solver; case analysis | partial | Props_Static3 |
| C47 | Static control displacement; induction over histories of steps | proved | Props_Static3 |
| C48 | Dynamic Newmark; algebra | proved | Props_Dynamic |
| C49 | Dynamic Newmark; energy identity, induction over steps | proved | Props_Dynamic |
| C50 | Dynamic; algebra for affine residuals, counterexamples | partial | Props_Dynamic, Props_Dynamic2 |
| C51 | Dynamic Bathe; algebra | proved | Props_Dynamic2 |
| C52 | Dynamic RK4; algebra | proved | Props_Dynamic3 |
| C53 | Dynamic Wilson; algebra, counterexample | partial | Props_Dynamic3 |
| C54 | Dynamic implicit Euler; algebra, counterexample | partial | Props_Dynamic4 |
| C55 | Dynamic base class; induction over histories, counterexamples | partial | Props_Dynamic5 |
| C56 | XBraid; list lemmas on segments | partial | Props_XBraid |
| C57 | Eigen; linear algebra | partial | Props_Eigen |
| C58 | Eigen; case analysis over callback outcomes | partial | Props_Eigen |
| C59 | Eigen power iteration; induction, real analysis | partial | Props_Eigen |
| C60 | Tools output file; list lemmas | partial | Props_Tools |
| C61 | Tools panels; real arithmetic on corner points | partial | Props_Tools |
| C62 | Tools panels; real arithmetic on corner points | partial | Props_Tools |
| C63 | MPI; commutation of all enabled actions (diamond), one complete run decides all | partial | Props_MPI |
| C64 | APALMData; invariant | proved | Props_APALMData |
| C65 | APALMDriver, APALMExec; invariant of the transition system of main with arbitrary order of answers | proved | Props_APALMDriver |
| C66 | APALMDriver; counterexample | partial | Props_APALMDriver |
| C67 | APALMDriver; counterexample | partial | Props_APALMDriver |
| C68 | APALMWorker; loop invariant, counterexample | partial | Props_APALMWorker |
| C69 | APALMWorker; induction on the number of halvings | proved | Props_APALMWorker |
| C70 | APALMData, APALMWorker; counterexample | partial | Props_APALMWorker |
| C71 | APALMWorker, APALMData; invariant after serialSolve, counterexample | partial | Props_APALMWorker |
| C72 | ALMSingular; loop induction, counterexample by evaluation | partial | Props_ALMExtended |
| C73 | ALMSingular extended iterations; algebra | proved | Props_ALMExtended |
| C74 | ALMSingular; loop induction | proved | Props_ALMExtended |
| C75 | Dynamic; algebra, loop induction, counterexamples | partial | Props_Dynamic6 |
| C76 | Dynamic; algebra, loop induction, counterexamples | partial | Props_Dynamic6 |
| C77 | XBraid, Dynamic; induction over time points, counterexample | partial | Props_XBraid |
| C78 | XBraid; real arithmetic | partial | Props_XBraid |
| C79 | Eigen buckling; linear algebra | proved | Props_Eigen |
| C80 | Eigen; histories of calls, counterexample | partial | Props_Eigen |
| C81 | Tools output file; list lemmas | partial | Props_Tools |
| C82 | Fitter; interpolation law, knot computation for degree one, counterexample | partial | Props_Fitter |
| C83 | Fitter; order of averaged knots | proved | Props_Fitter |
| C84 | Fitter; map lemmas, counterexamples | partial | Props_Fitter |
| C85 | Fitter nearestParam; loop induction, quadratic for straight curves, counterexample | partial | Props_Fitter |
| C86 | Fitter space-time; index arithmetic, counterexamples | partial | Props_Fitter |
| C87 | Fitter space-time; index arithmetic, counterexamples | partial | Props_Fitter |
| C88 | StaticMore; relation between sessions, counterexamples | partial | Props_Static5 |
| C89 | StaticMore; minimum over the selected values, counterexamples | partial | Props_Static5 |
| C90 | APALMSolver (the solver interface of gsAPALM filled with the ALM model); loop invariants of the worker, driver theorem, two evaluated counterexamples | partial | Props_APALMSolver |
| C91 | ALMStep predictors; equation lemmas on the states a step records, counterexamples | partial | Props_ALMPredict |
| C92 | Dynamic Wilson; from C48 and C76 | partial | Props_Dynamic7 |
| C93 | Dynamic loops; one lemma about loops of this shape builds the sequence of iterates | proved | Props_Dynamic7 |
| C94 | APALMDriver serialLoop and startMain/round; a simulation between the serial loop and main with one worker, counterexamples evaluated | partial | Props_APALMSerial |
| C95 | APALMWorker initiation over any solver, instance APALMSolver; induction over the repeated steps | partial | Props_APALMLength |
| C96 | MPIMain: programs of main and all workers; every step but the choice of a worker commutes with the others (diamond), so that between two choices one run decides all; simulation by APALMDriver executions, both directions | proved | Props_MPIMain |
| C97 | APALMOrder: the tree of corrections a segment leads to is decided by the job alone; invariant: curve + open jobs + queue = a cut through these trees; executions of APALMDriver, serial driver and MPIMain reduced to it | partial | Props_APALMOrder, Props_APALMOrder2 |
| C98 | ALMRestart: relation between two solver states (what a step reads before writing it), kept by every part of step(); simulation of the loop of _correction; curves through C97 | partial | Props_ALMRestart |
| C99 | ALMSingular; inductive walk of accepted and rejected trials, invariant of the bisection loop, stability values at a point | proved | Props_ALMBisect |

No property is "not applicable".
