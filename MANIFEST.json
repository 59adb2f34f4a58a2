{"claims": [
{"property": "C01", "status": "proved", "theorems": ["C01_segments_never_overlap", "C01_active_jobs_disjoint"], "note": "For all histories of allowed calls; allowed = init only without active jobs, completion = submit then finishJob of an active correction job with positive distances, one more than solutions."},
{"property": "C02", "status": "proved", "theorems": ["C02_export_ordered_complete"], "note": ""},
{"property": "C03", "status": "proved", "theorems": ["C03_submit_keeps_solutions", "C03_submit_accepts"], "note": ""},
{"property": "C04", "status": "proved", "theorems": ["C04_submit_changes_one_length"], "note": ""},
{"property": "C05", "status": "proved", "theorems": ["C05_job_data_stays_valid"], "note": ""},
{"property": "C06", "status": "proved", "theorems": ["C06_ids_never_reused"], "note": ""},
{"property": "C07", "status": "proved", "theorems": ["C07_levels_bounded"], "note": ""},
{"property": "C08", "status": "proved", "theorems": ["C08_refinement_terminates", "C08_refinement_terminates_start"], "note": "Also counts segments added by appendData and initiation jobs added by appendPoint."},
{"property": "C09", "status": "proved", "theorems": ["C09_errors_decide_refinement"], "note": ""},
{"property": "C10", "status": "partial", "theorems": ["C10_lookup_by_time_refuted", "C10_unknown_time_reports_first_point", "C10_lookup_by_time_partial"], "note": "Refuted: an unknown time is reported as found, with the solution of the first point. Partial: stored times are answered correctly and the curve is unchanged."},
{"property": "C100", "status": "partial", "theorems": ["C100_recorded_partial", "C100_next_step_partial", "C100_refuted"], "note": "Refuted: the trial steps of the bisection overwrite the sign that is put back; after a trial behind the limit point the search records 'unstable' although the point before is stable, and a later step to a stable point reports a change. Partial: stabilityChange() is false after every completed search; without bisection the sign is the one before, and with the determinant indicator and no output the next step reports a change exactly if the stability differs from it."},
{"property": "C101", "status": "proved", "theorems": ["C101_stable", "C101_undamped", "C101_sharp"], "note": "Linear variant (the nonlinear one gives the same steps on linear problems, C50_newmark). C101_sharp: with alpha = 0 one step multiplies the quantity by more than 50."},
{"property": "C102", "status": "proved", "theorems": ["C102_energy", "C102_stable"], "note": "Linear variant. The exact loss holds for every gamma other than 0, 1, 2."},
{"property": "C103", "status": "proved", "theorems": ["C103_implicit", "C103_implicit_stable", "C103_explicit", "C103_explicit_grows"], "note": "Linear variants with constant matrices; GMRES and the inverse of the mass taken as exact."},
{"property": "C104", "status": "proved", "theorems": ["C104_energy", "C104_stable", "C104_sharp"], "note": "Linear variant, C = 0. C104_sharp: beyond the limit one step multiplies the energy by more than 50."},
{"property": "C105", "status": "proved", "theorems": ["C105_newmark"], "note": "Exact arithmetic and exact linear solves; derivatives in the sense that every component has them."},
{"property": "C106", "status": "proved", "theorems": ["C106_implicit"], "note": "Exact arithmetic; GMRES exact."},
{"property": "C107", "status": "proved", "theorems": ["C107_rk4"], "note": "Exact arithmetic; C = 0, constant force."},
{"property": "C108", "status": "proved", "theorems": ["C108_bathe"], "note": "Exact arithmetic; the two system matrices of every step are assumed regular and solved exactly."},
{"property": "C109", "status": "proved", "theorems": ["C109_newton"], "note": "Exact arithmetic; started without setUpdate; Relaxation = 1. x0 = 0 (start at the solution) is excluded: C40_refuted."},
{"property": "C11", "status": "proved", "theorems": ["C11_lookup_by_parameter"], "note": ""},
{"property": "C110", "status": "proved", "theorems": ["C110_newmark"], "note": "Exact arithmetic. Example: a spring of Duffing, three passes."},
{"property": "C111", "status": "proved", "theorems": ["C111_implicitEuler"], "note": "Exact arithmetic, GMRES exact. Example: a spring of Duffing, three passes."},
{"property": "C112", "status": "proved", "theorems": ["C112_converges"], "note": "Kantorovich-type theorem for the bordered system. Crisfield's method is not included: its corrector solves the quadratic arc-length equation exactly and is not Newton's method. Example C112_example: Riks on a hardening spring."},
{"property": "C113", "status": "proved", "theorems": ["C113_short_load_steps"], "note": ""},
{"property": "C114", "status": "partial", "theorems": ["C114_points", "C114_tolerances_partial", "C114_refuted"], "note": "Refuted: a step that ends with SolverError is not repeated, and its starting point is written as a new point (C114_refuted). Proved: the number of points and how they are joined (C114_points); within the tolerances if no factorisation or linear solve failed (C114_tolerances_partial)."},
{"property": "C115", "status": "proved", "theorems": ["C115_terminates", "C115_first_point"], "note": ""},
{"property": "C116", "status": "partial", "theorems": ["C116_converged_is_success_partial", "C116_refuted"], "note": "Refuted: with MaxIter = 1 step() returns Success and converged() is false (C116_refuted). Proved for MaxIter >= 2."},
{"property": "C117", "status": "partial", "theorems": ["C117_points_partial", "C117_refuted"], "note": "Refuted with SingularPoint: at a limit point computeSingularPoint only goes back to the point before, which is written again although the step had converged (C117_refuted). Proved without SingularPoint, MaxIter >= 2."},
{"property": "C118", "status": "proved", "theorems": ["C118_terminates", "C118_first_point"], "note": ""},
{"property": "C119", "status": "partial", "theorems": ["C119_frustrum_points_partial", "C119_snapping_points_partial", "C119_refuted", "C119_repeated_refuted"], "note": "Proved: the number of points, and each point is in equilibrium to the tolerance with an increment dL0/2^j, or repeats the point before it. Refuted: a step that fails with SolverError is not repeated and the old point is written again; after a halved step D differs from control.solutionL()."},
{"property": "C12", "status": "partial", "theorems": ["C12_query_unknown_id_refuted", "C12_queries_pure_partial"], "note": "Refuted for an unknown ID (operator[] inserts a job). Partial: for active IDs all six queries change nothing and return the values of the job."},
{"property": "C120", "status": "partial", "theorems": ["C120_terminates", "C120_solutions_partial", "C120_refuted"], "note": "Proved with an explicit bound on the number of passes: the loop ends, D is increasing, every checkpoint is met, a point without Success has an increment of at most dL0/8; if increments of at most dL0/8 succeed all points are solutions. Refuted: with a solver that never converges unconverged results are written at every checkpoint and the program ends as usual."},
{"property": "C121", "status": "partial", "theorems": ["C121_newton_partial", "C121_linear", "C121_refuted"], "note": "Proved: with NR and status Success the written vector is in equilibrium to the tolerance (C121_newton_partial). Refuted: the status is not looked at, and when NR fails the linear solution is written although it is not in equilibrium (C121_refuted); for every problem NR starts at zero, not at the linear solution, because a linear solve leaves update() at zero (C121_linear)."},
{"property": "C122", "status": "partial", "theorems": ["C122_shell_partial", "C122_tutorial_partial", "C122_beam", "C122_times", "C122_refuted"], "note": "Proved for the shell examples. Refuted: the tutorials attach to each displacement the time at which its step starts; example_DynamicBeamNL uses the const step, which does not advance time(), so every step is computed from time 0 and every row has the time 0 (C122_beam, for every integrator; C122_refuted shows the wrong displacements)."},
{"property": "C123", "status": "proved", "theorems": ["C123_terminates", "C123_first_point", "C123_forever"], "note": "C123_first_point assumes that no callback throws, no linear solve fails, and that the equations are regular (Lipschitz tangent, bounded inverse) around the origin for small loads."},
{"property": "C124", "status": "partial", "theorems": ["C124_modal_partial", "C124_refuted"], "note": "Refuted: ten values are always printed, but only nmodes (default 1) are computed; with fewer than ten modes every successful computation ends in a read behind the values, in all four solver programs. Proved for all executions that end normally. G+Smo's at() is taken as unchecked."},
{"property": "C125", "status": "partial", "theorems": ["C125_loads_partial", "C125_refuted"], "note": "Refuted for the multipatch program: it subtracts the linear stiffness before calling the constructor, which subtracts it again, so a value y belongs to the load factor -y/(1+y) instead (C125_loads_partial states both; C125_refuted: -2/3 printed instead of -2). The iterative linear solve is assumed exact."},
{"property": "C126", "status": "partial", "theorems": ["C126_points_partial", "C126_limit_point", "C126_refuted"], "note": "Refuted: switchBranch() is called whatever the search has found, and the point written is the one after the perturbation by 1/tau. At a limit point the step that had converged is thrown away and the point before is written again, moved off the path at the same load (C126_limit_point; C126_refuted: residual 2). Proved: the number of points and, for each, which of the two it is."},
{"property": "C127", "status": "proved", "theorems": ["C127_again"], "note": "The conditions on gsALMCrisfield and gsALMConsistentCrisfield are those of C98, where they are shown to be needed."},
{"property": "C128", "status": "partial", "theorems": ["C128_files_partial", "C128_refuted"], "note": "Refuted: the status is ignored, so that after the first failed step all files are copies of the point before it. The partial theorem gives exactly that: converged points up to the first failure, copies from then on."},
{"property": "C129", "status": "partial", "theorems": ["C129_terminates", "C129_written_partial", "C129_refuted"], "note": "Termination is proved without conditions. Refuted: in a release build (GISMO_ASSERT off) a failure at load factor 0 leads to negative load factors; the partial theorem assumes a debug build or that the unloaded problem is solved."},
{"property": "C13", "status": "partial", "theorems": ["C13_container_empty", "C13_first_branch_partial", "C13_first_branch_refuted"], "note": "Holds when some branch has work. The last part of the claim is refuted: when nothing waits getFirstNonEmptyBranch reads past the end of the container."},
{"property": "C130", "status": "proved", "theorems": ["C130_success", "C130_rate", "C130_limit", "C130_equilibrium"], "note": "(a) C130_success, (b) C130_rate, (c) C130_limit, (d) C130_equilibrium. Exact arithmetic; the bounds on K and M that a finite-dimensional space provides by itself are hypotheses of the record relaxable."},
{"property": "C131", "status": "partial", "theorems": ["C131_lowest_partial", "C131_refuted"], "note": "Refuted: a start vector without a component along the eigenvector, or two close eigenvalues, give Success with a wrong eigenvalue or a vector far from every eigenvector. C131_lowest_partial: with a spectral gap, a component of the vector of ones, enough iterations and a small tolerance, Success with explicit error bounds for the vector and the value; l is the eigenvalue of smallest magnitude."},
{"property": "C132", "status": "proved", "theorems": ["C132_bisection_accuracy"], "note": "Load control; the behaviour of the problem around lc (predicate passes) is a hypothesis, discharged for a two-dimensional pitchfork in C132_example for every number of iterations."},
{"property": "C133", "status": "proved", "theorems": ["C133_full_load", "C133_terminates"], "note": "That the first loop ends is not claimed: an arc-length method need not reach the load factor 1. Exact arithmetic. The solvers are the models of step() of the other properties."},
{"property": "C134", "status": "partial", "theorems": ["C134_points_partial", "C134_terminates", "C134_stop_partial", "C134_refuted"], "note": "Proved without SingularPoint, without AdaptiveLength and for MaxIter at least 2. Refuted: with SingularPoint benchmark_Beam writes the point moved by switchBranch(), which is no equilibrium; with MaxIter = 1 step() answers Success without an iteration and the programs which test the status use the unchanged point."},
{"property": "C135", "status": "partial", "theorems": ["C135_rows_partial", "C135_terminates", "C135_refuted", "C135_release_refuted"], "note": "Refuted: when the last target is visited it is erased and Dtarget.front() of the empty vector is read (l.455, then back() in l.395), for every solver that succeeds (C135_refuted). So the loop only ends normally by the number of steps, before the last target. In a release build a solver that always fails keeps it running for ever (C135_release_refuted). Proved: the rows, the targets visited, and the end in debug builds."},
{"property": "C136", "status": "partial", "theorems": ["C136_strain", "C136_frustrum", "C136_points_partial", "C136_terminates", "C136_refuted"], "note": "Refuted: three of the programs repeat a step only for NotConverged and AssemblyError, so that after a SolverError the old point is written again; and with SingularPoint a point out of equilibrium can be written (C136_refuted). Proved: number and strains of the rows, in all cases; the rows are converged without SingularPoint if converged() is tested or if no factorisation or linear solve failed; the loops end. The same loop without a strain limit is that of benchmark_FrustrumALM and of benchmark_Wrinkling with SingularPoint: exactly the requested number of points (C136_frustrum)."},
{"property": "C137", "status": "partial", "theorems": ["C137_tries_partial", "C137_terminates", "C137_loadsteps_partial", "C137_unsolved_refuted", "C137_stall_refuted", "C137_refuted", "C137_mesh"], "note": "Refuted: (1) benchmark_Roof_DWR decreases `it` at every failure, so maxRefIt is exceeded by the number of failures (C137_refuted, for every maxRefIt and number of failures); the true bound is in C137_tries_partial. (2) If the initial error (1 in benchmark_Wrinkling_DWR) is in the band, or maxRefIt <= 0, rows are written without any step() (C137_unsolved_refuted). (3) If refine() does nothing the flag coarsened stays true and the same mesh is solved maxRefIt times (C137_stall_refuted). The mesher, the assembler and the solver are oracles; the error is a real number (no NaN). C137_mesh: what is done to the mesh for every error."},
{"property": "C138", "status": "partial", "theorems": ["C138_rows_partial", "C138_terminates", "C138_refuted", "C138_steps_refuted"], "note": "Refuted: k is never increased in this loop, so maxSteps has no effect (C138_steps_refuted), every row and file has the index 0, and without a bifurcation and with bounded strains the loop never ends (C138_refuted). Proved: converged steps and lengths, the rows, the two reasons for the end, and the end when the strain grows. The solver is an oracle; strains are real numbers (no NaN)."},
{"property": "C14", "status": "proved", "theorems": ["C14_jobs_answered_once", "C14_answer_goes_to_its_branch"], "note": "For the first driver call on an object (the pool m_workers starts empty); a second call is C66."},
{"property": "C15", "status": "proved", "theorems": ["C15_dispatch_limit", "C15_serial_parallelSolve"], "note": ""},
{"property": "C16", "status": "partial", "theorems": ["C16_serial_solve_bounded_partial", "C16_initiation_refuted"], "note": "The number of jobs is bounded by MaxIt + (MaxIt+1)*max(1,Nsteps-1) for every solver behaviour. Refuted for arc-length steps: one initiation repeats a step that fails with SolverError forever (C69 gives a condition under which it stops)."},
{"property": "C17", "status": "proved", "theorems": ["C17_branches_stay_valid", "C17_solutions_stay", "C17_new_end_point", "C17_new_branch"], "note": ""},
{"property": "C18", "status": "proved", "theorems": ["C18_halving_conserves_length"], "note": "For D > 0; 'succeeds' is read as the code does: every status except NotConverged and AssemblyError (see C68)."},
{"property": "C19", "status": "proved", "theorems": ["C19_correction_result_accepted", "C19_worker_answer_acceptable", "C19_initiation_acceptable"], "note": "The two further theorems connect the result to the hypothesis of the driver theorems."},
{"property": "C20", "status": "partial", "theorems": ["C20_points_per_branch_partial", "C20_refuted", "C20_serialSolve_points"], "note": "Proved for solve(N) with N >= 2 and serialSolve(N) with N >= 1. Refuted for solve(1), which stores two points."},
{"property": "C21", "status": "partial", "theorems": ["C21_level_lists_partial", "C21_refuted"], "note": "Refuted: the loop runs to the number of branches. Holds if the number of branches equals the number of points and MaxLevel >= 1."},
{"property": "C22", "status": "proved", "theorems": ["C22_serialSolve_records", "C22_branches"], "note": ""},
{"property": "C23", "status": "proved", "theorems": ["C23_failed_step_keeps_solution"], "note": ""},
{"property": "C24", "status": "partial", "theorems": ["C24_success_meets_tolerances_partial", "C24_refuted"], "note": "Proved for MaxIter >= 2. Refuted: with MaxIter 1 the loop ends after one iteration without any convergence test or exception, and the status is Success."},
{"property": "C25", "status": "partial", "theorems": ["C25_status_kind_partial", "C25_uninitialised", "C25_refuted"], "note": "Proved for MaxIter >= 2. Refuted: with MaxIter 1 a step reports Success without convergence."},
{"property": "C26", "status": "proved", "theorems": ["C26_length_factor", "C26_length_positive"], "note": ""},
{"property": "C27", "status": "proved", "theorems": ["C27_iterate_on_constraint", "C27_real_root", "C27_step_distance"], "note": ""},
{"property": "C28", "status": "partial", "theorems": ["C28_complex_on_constraint_partial", "C28_refuted"], "note": "Proved for the fallback on the secant-like direction when no eta exists. Refuted: the eta fallback leaves the constraint surface."},
{"property": "C29", "status": "partial", "theorems": ["C29_chosen_root_partial", "C29_refuted"], "note": "Proved when |F| = 1 or the previous load increment is zero. Refuted for the full inner product: the comparison omits the |F|^2 factor of the load term."},
{"property": "C30", "status": "proved", "theorems": ["C30_riks_increment", "C30_riks_step"], "note": ""},
{"property": "C31", "status": "proved", "theorems": ["C31_consistent_increment"], "note": ""},
{"property": "C32", "status": "partial", "theorems": ["C32_load_control_partial", "C32_load_control_run_partial", "C32_refuted"], "note": "Proved for MaxIter >= 2. Refuted: with MaxIter 1 a Success step is not at equilibrium."},
{"property": "C33", "status": "partial", "theorems": ["C33_guess_once_partial", "C33_refuted"], "note": "Proved for Crisfield and Riks. Refuted: load control never clears the guess, so a later step starts from it again."},
{"property": "C34", "status": "partial", "theorems": ["C34_change_partial", "C34_isStable_refuted", "C34_refuted"], "note": "Proved: stabilityChange() is true exactly when the sign of stability() changed over the last stored states, and the indicator follows the sign of the smallest coefficient. Refuted: the reported sign is opposite to the documented one, and isStable() answers true for both signs."},
{"property": "C35", "status": "partial", "theorems": ["C35_same_results_partial", "C35_refuted"], "note": "Proved for solutions, load factors, statuses and exceptions over every history of calls of the stepping API (no singular-point search). Refuted: stabilityChange() answers differently with Verbose on."},
{"property": "C36", "status": "partial", "theorems": ["C36_restores_settings_partial", "C36_refuted", "C36_status_refuted"], "note": "Proved: length and adaptive switch are restored when the search ends without an exception. Refuted: an assembly error during bisection leaves the adaptive switch off, and the status after the call may be the one of an earlier call."},
{"property": "C37", "status": "proved", "theorems": ["C37_switch_branch", "C37_search"], "note": ""},
{"property": "C38", "status": "partial", "theorems": ["C38_newton_success_partial", "C38_refuted"], "note": "Refuted: with MaxIterations = 0 solve answers Success without any check, and after a linear solve update() is stale, so solution() is not start + update(). Proved for nonlinear problems with MaxIterations >= 1: residual at solution() is below the force tolerance relative to the residual at the start, the update criterion holds, solution() = start + update(), converged()."},
{"property": "C39", "status": "partial", "theorems": ["C39_contained", "C39_statuses_partial", "C39_refuted"], "note": "Refuted: a NotConverged solve changes solution(). Proved: with callbacks that do not throw, no exception leaves solve and every status corresponds to the failing call in the log of evaluations; on AssemblyError and SolverError the displacement is unchanged."},
{"property": "C40", "status": "partial", "theorems": ["C40_linear_partial", "C40_refuted"], "note": "Refuted: started at the exact solution of a linear problem the test divides 0 by 0 and the solve ends NotConverged. Proved otherwise: the answer is the exact solution."},
{"property": "C41", "status": "partial", "theorems": ["C41_load_partial", "C41_refuted"], "note": "Refuted: the load factor of a fresh solver is 0 (Newton, dynamic relaxation). Proved: after setLoad all residuals are evaluated at that load."},
{"property": "C42", "status": "proved", "theorems": ["C42_energy", "C42_peak", "C42_rest", "C42_history"], "note": "Energies of a run are nonnegative for every nonnegative mass however the run ends; a kinetic peak leaves zero velocity and energy; at rest an iteration keeps the displacement exactly at an equilibrium. C42_history: every run that ends with Success or with the exception of the last iteration is a history of the scheme, stated independently of the solver's state."},
{"property": "C43", "status": "partial", "theorems": ["C43_success_partial", "C43_refuted"], "note": "Refuted: the residual of the test is the one before the last increment, exceptions leave solve, and too small MaxIterations answers Success untested. Proved: what the test guarantees when the loop ran."},
{"property": "C44", "status": "partial", "theorems": ["C44_reset_partial", "C44_refuted"], "note": "Refuted for alpha = 2 (the default): reset() loses the scaling of the mass, the first increment doubles. Proved for alpha = 1 after any history of calls."},
{"property": "C45", "status": "proved", "theorems": ["C45_composite", "C45_exception", "C45_newton_chain"], "note": "For every list of solvers and every behaviour: order, chaining of updates, first failure, untouched later solvers, summed iterations, reported solution; exceptions; Newton chains start where the predecessor stopped."},
{"property": "C46", "status": "partial", "theorems": ["C46_opt_partial", "C46_refuted"], "note": "Refuted: status() never changes from NotStarted, converged() is never true, and after setDisplacement the next solve starts at displacement + old update. Proved: Success is returned, solution() is the design of the optimiser, and after reset it starts at zero."},
{"property": "C47", "status": "proved", "theorems": ["C47_failed_step", "C47_load_sum", "C47_newton"], "note": "Failed and throwing steps change neither load nor displacement; the load is the sum of the successful increments over any history; with a nonlinear Newton solver started at zero every successful step ends in equilibrium at the new load."},
{"property": "C48", "status": "proved", "theorems": ["C48_newmark"], "note": "Linear step; matrices are those assembled at t+dt in the predictor."},
{"property": "C49", "status": "proved", "theorems": ["C49_energy"], "note": "Sequences of steps of any size, constant symmetric operators without damping; balance at the start is a hypothesis."},
{"property": "C50", "status": "partial", "theorems": ["C50_newmark", "C50_rk4", "C50_explicit_partial", "C50_bathe_partial", "C50_refuted", "C50_bathe_loose"], "note": "Refuted: nonlinear explicit Euler accelerates against the residual; nonlinear Bathe from rest ends NotConverged by 0/0 in its test. Newmark and RK4 agree in full, explicit Euler up to the sign, Bathe when its iteration ends with an exact update."},
{"property": "C51", "status": "proved", "theorems": ["C51_balance", "C51_quadratic", "C51_exact"], "note": ""},
{"property": "C52", "status": "proved", "theorems": ["C52_taylor", "C52_polynomial"], "note": "Linear problems with constant operators."},
{"property": "C53", "status": "partial", "theorems": ["C53_wilson_partial", "C53_refuted"], "note": "Refuted: the linear Wilson step leaves out the old velocity and acceleration terms of the displacement. Partial: what it does compute."},
{"property": "C54", "status": "partial", "theorems": ["C54_linear", "C54_nonlinear_partial", "C54_refuted"], "note": "Linear: holds with the stiffness assembled at t. Refuted: the nonlinear variant evaluates the residual at t, so a time-dependent force enters at the old time; the linear one returns Success when GMRES gives no finite answer. Partial: constant problem, nonlinear = linear."},
{"property": "C55", "status": "partial", "theorems": ["C55_step_partial", "C55_history", "C55_const", "C55_cache", "C55_exception_partial", "C55_refuted"], "note": "Refuted: a step that does not converge advances the clock and changes the vectors; a Newmark step left by an exception has changed U and V. Proved for every history: clock = sum over steps neither refused nor left by an exception; const step leaves the object and its stored inverse is unobservable; integrators that write late leave no trace on exceptions."},
{"property": "C56", "status": "partial", "theorems": ["C56_packing", "C56_mismatch", "C56_forcing"], "note": "The packing of the vector into the message buffer is code of the gsXBraid module, which is not in the repository; proved: entries plus two equals the declared size."},
{"property": "C57", "status": "partial", "theorems": ["C57_spectrum", "C57_refuted"], "note": "C57_spectrum: whatever the shift and mode, if the library returns eigenpairs of the matrices it is given, mode(k) is an eigenpair of the unshifted pair. Refuted without that hypothesis: compute never reads the dense solver's info(), so Success is reported with values that are no eigenvalues."},
{"property": "C58", "status": "partial", "theorems": ["C58_exception_partial", "C58_refuted"], "note": "Refuted: a Jacobian callback that returns false is not noticed by the buckling solver, compute then returns Success with values. Proved when the callback throws, for any history of calls."},
{"property": "C59", "status": "partial", "theorems": ["C59_power", "C59_bound", "C59_eigenvector_partial", "C59_refuted"], "note": "Proved: on Success the vector has length one and is an approximate eigenvector with the stated bound; an eigenvector with positive eigenvalue as start succeeds. Refuted: a negative eigenvalue never converges, and B = 0 gives Success with 0/0."},
{"property": "C60", "status": "partial", "theorems": ["C60_rectangular_partial", "C60_refuted"], "note": "Refuted: the number of columns of the data is not compared with the number of points. Proved with assertions on and one column per point."},
{"property": "C61", "status": "partial", "theorems": ["C61_translation_partial", "C61_refuted"], "note": "Refuted: PlateGirderL ignores its origin. Proved for the eight other shapes."},
{"property": "C62", "status": "partial", "theorems": ["C62_joints_partial", "C62_connected_partial", "C62_refuted"], "note": "Refuted: LBeam declares an interface between sides that do not coincide. Proved: at the joints of each shape sides coincide for all sizes and origins, and the joints connect all patches. computeTopology of the library is not modelled."},
{"property": "C63", "status": "partial", "theorems": ["C63_session_partial", "C63_answers_partial", "C63_refuted"], "note": "Proved for all sizes, numbers of jobs, interleavings and buffering: no deadlock, jobs and answers arrive complete and in order, if loads and sizes are read before they are overwritten or every answer has one solution. Refuted in general: _sendWorkerToMain overwrites the variables load and vectorSize while their sends are pending; with two solutions main can receive the load of the last for both. One worker; request ids are tags."},
{"property": "C64", "status": "proved", "theorems": ["C64_pop_total"], "note": ""},
{"property": "C65", "status": "proved", "theorems": ["C65_main_never_fails"], "note": ""},
{"property": "C66", "status": "partial", "theorems": ["C66_second_run_refuted"], "note": "The claim is refuted: after a first call the workers are in the pool twice."},
{"property": "C67", "status": "partial", "theorems": ["C67_solve_with_existing_branch_refuted"], "note": "The claim is refuted: K[branch] is read out of range."},
{"property": "C68", "status": "partial", "theorems": ["C68_only_converged_stored_partial", "C68_only_converged_stored_refuted"], "note": "Refuted: a step ending with SolverError is stored. Holds if steps end with Success, NotConverged or AssemblyError only."},
{"property": "C69", "status": "proved", "theorems": ["C69_correction_terminates", "C69_initiation_terminates"], "note": "The initiation additionally needs that steps return no other status than Success, NotConverged or AssemblyError (see C16_initiation_refuted)."},
{"property": "C70", "status": "partial", "theorems": ["C70_last_on_reference_refuted"], "note": "Refuted: the knot is stored twice and the reference solution is overwritten. For a positive last distance the curve stays valid (C01, C03, C17)."},
{"property": "C71", "status": "partial", "theorems": ["C71_serialSolve_prepares_partial", "C71_serialSolve_one_step_refuted"], "note": "Holds whenever serialSolve returns and all step distances are positive. Refuted for N = 1: the parametrisation divides by zero."},
{"property": "C72", "status": "partial", "theorems": ["C72_located_point_partial", "C72_refuted"], "note": "Proved: the tangent at the returned point maps V + DeltaV below the tolerance (MaxIter >= 1). Refuted: equilibrium is not tested; a converged search returns a point with residual 1/4."},
{"property": "C73", "status": "proved", "theorems": ["C73_extended_iteration"], "note": ""},
{"property": "C74", "status": "proved", "theorems": ["C74_bifurcation_test"], "note": ""},
{"property": "C75", "status": "partial", "theorems": ["C75_balance_partial", "C75_stale", "C75_refuted"], "note": "Refuted for Runge-Kutta, implicit Euler and Wilson; the Euler and Runge-Kutta steps never change the accelerations. Proved for linear Newmark and Bathe steps with constant operators."},
{"property": "C76", "status": "partial", "theorems": ["C76_newmark", "C76_refuted"], "note": "Proved for Newmark. Refuted for Bathe and Wilson, which ignore the status of the Newmark step."},
{"property": "C77", "status": "partial", "theorems": ["C77_sequential", "C77_callback_refuted"], "note": "Proved without pre-step callback (which the const step does not call: refuted with one) and without forcing."},
{"property": "C78", "status": "partial", "theorems": ["C78_factor_partial", "C78_refuted"], "note": "Refuted: error estimate 0 gives the factor 0. Proved for positive estimates and none."},
{"property": "C79", "status": "proved", "theorems": ["C79_buckling"], "note": "For a Jacobian linear + c G (the linearisation the method rests on)."},
{"property": "C80", "status": "partial", "theorems": ["C80_kept_partial", "C80_refuted"], "note": "Refuted: after NotConverged or an exception the values of the earlier computation are still returned."},
{"property": "C81", "status": "partial", "theorems": ["C81_digits", "C81_refuted"], "note": "Refuted: the precision has no effect; proved instead that every value has six digits, whatever was set."},
{"property": "C82", "status": "partial", "theorems": ["C82_fit_at_anchors_partial", "C82_degree_one_partial", "C82_between_partial", "C82_through_data_refuted"], "note": "Refuted: the values are imposed at the anchors of the basis, not at the data times; degree 2, times 0,1,4, values 0,1,0 gives 3/4 at t=1 for every solver that meets the constraints. Partial: the fit takes the k-th value at the k-th anchor, for every degree and parametrisation; for degree 1 with the chord-length parametrisation the anchors are the times, so the property holds, and between two neighbouring times the curve is the straight line through their values. Assumed of the library: coefficients meet C c = rhs (fitLaw)."},
{"property": "C83", "status": "proved", "theorems": ["C83_knot_vector", "C83_equidistant"], "note": "For at least two points (with one point and degree 0 the support is a single number). C83_equidistant: parametrisation 0 divides the range evenly; other values than 0, 1, 2 are rejected."},
{"property": "C84", "status": "partial", "theorems": ["C84_add_partial", "C84_new_value_used_refuted", "C84_no_time_zero_refuted"], "note": "Refuted: a point at an existing time is ignored, and without a point at exactly t=0 compute() throws. Partial: order is kept, other points are unchanged, and the new point is stored if the time is new."},
{"property": "C85", "status": "partial", "theorems": ["C85_nearest_param_partial", "C85_straight_line", "C85_in_support_refuted"], "note": "Refuted: the step test returns before the clamp, so the result may lie outside the support (x(u)=u on [0,1], p=1+1e-9). Partial: the result is the end of one of the searches, no other search ends closer, and it is in the support up to a relative 1e-8; on a straight curve the result is as near as every point of the support. Evaluation of the curve with NaN (both derivatives zero) is not modelled."},
{"property": "C86", "status": "partial", "theorems": ["C86_slice_at_anchors_partial", "C86_plane_problem_refuted", "C86_at_parametric_times_refuted"], "note": "Refuted: the load is read from column domainDim+1, which does not exist when the solution has fewer than domainDim+1 components; and the values are imposed at the anchors of a uniform basis, not at the parametric times. Partial: load and solution of step k at the k-th anchor when the solution has domainDim+1 components. domainDim = 1 is not covered (the library's answer to component(1) is unknown)."},
{"property": "C87", "status": "partial", "theorems": ["C87_added_point_ignored_partial", "C87_added_point_used_refuted"], "note": "Refuted: solution and time are dropped. The partial theorem states what holds instead: an added point with a parametric time in the range of the old ones leaves the fit unchanged."},
{"property": "C88", "status": "partial", "theorems": ["C88_newton_reset_partial", "C88_control_setZero_partial", "C88_status_refuted", "C88_composite_refuted", "C88_control_reset_refuted"], "note": "Refuted: Newton's status() survives reset(); gsStaticComposite::reset leaves its own solution() and update(); gsControlDisplacement::reset keeps load and displacement. Partial: for Newton everything else (answers of all later calls, solution(), update()), and gsControlDisplacement::setZero with a Newton solver. Dynamic relaxation: C44."},
{"property": "C89", "status": "partial", "theorems": ["C89_indicator_partial", "C89_missed_refuted", "C89_stale_refuted"], "note": "Refuted: an eigenvalue below the shift is missed, so the indicator of an unstable matrix can be positive; a failed computation returns the old values; Determinant with another solver than SimplicialLDLT never fills the vector. Partial: success of the computation, and all eigenvalues above the shift. Assumed of the library: Spectra selects the values x with the largest 1/(x-shift)."},
{"property": "C90", "status": "partial", "theorems": ["C90_riks_correction_partial", "C90_riks_initiation_partial", "C90_riks_main_never_fails_partial", "C90_crisfield_refuted", "C90_solver_error_refuted"], "note": "Proved for Riks with MaxIter >= 2 when no step returns SolverError or OtherError. Refuted: with Crisfield a successful step may move by less than its length in the distance gsAPALM uses, and after a SolverError the correction returns the start again; in both cases the main process aborts."},
{"property": "C91", "status": "partial", "theorems": ["C91_crisfield_again", "C91_crisfield_first_partial", "C91_crisfield_first_refuted", "C91_secant_partial", "C91_setLength_ignored", "C91_retry_same_start", "C91_secant_refuted", "C91_first_predictor"], "note": "Proved for Crisfield after the first step, for its first step without user phi, and for the secant predictors as long as the previous length is that of the previous step. Refuted: setLength also replaces the previous length, so Riks and ConsistentCrisfield start at the same point for every length set; their first predictor and that of Crisfield with user phi miss the length. The retry theorem is the bisection of gsAPALM."},
{"property": "C92", "status": "partial", "theorems": ["C92_wilson_linear_partial", "C92_wilson_nonlinear_partial"], "note": "Linear: proved for the acceleration; velocity and displacement do not follow Newmark's formulas (refuted by C53_refuted). Nonlinear: proved when the inner Newmark step succeeded, which the status does not tell (C76_refuted)."},
{"property": "C93", "status": "proved", "theorems": ["C93_newmark", "C93_bathe", "C93_implicitEuler"], "note": "For steps that end without an exception and with finite values. The implicit Euler iteration takes the residual at time t and tests the right-hand side before the last correction; the theorem says so."},
{"property": "C94", "status": "partial", "theorems": ["C94_parallelSolve", "C94_solve_partial", "C94_limit_refuted", "C94_serial_new_branch", "C94_length_refuted"], "note": "parallelSolve: proved without restriction. solve: proved when main is not stopped by MaxIt and both give new branches the same length. Refuted otherwise: main counts initiations against MaxIt and the serial loop does not; main gives a new branch the length of its own solver, which computes nothing, the serial driver that of the solver that did the job."},
{"property": "C95", "status": "partial", "theorems": ["C95_length_after_initiation", "C95_solver_length_partial", "C95_serial_branch_partial", "C95_refuted"], "note": "Serial driver. Refuted: a step repeated with half the length halves the length of the new branch; the exact length is proved for every number of repetitions. With several processes the length is that of main's own solver (C17_new_branch, C94_length_refuted)."},
{"property": "C96", "status": "proved", "theorems": ["C96_network"], "note": "Under the stated condition on the answers; without it C63_refuted shows wrong loads. Examples: parallelSolve with two workers, solve with any number of processes."},
{"property": "C97", "status": "partial", "theorems": ["C97_order_partial", "C97_ended_complete", "C97_serial_partial", "C97_network_partial", "C97_limit_refuted"], "note": "Refuted when MaxIt cuts the run: C97_limit_refuted gives two orders with different curves. Proved for runs that end with an empty queue, for corrections that depend on the job alone; C97_ended_complete bounds the MaxIt that suffices."},
{"property": "C98", "status": "partial", "theorems": ["C98_step_partial", "C98_correction_partial", "C98_curves_partial", "C98_consistent_refuted", "C98_crisfield_refuted"], "note": "Refuted for gsALMConsistentCrisfield with its own phi (m_deltaUt of an earlier step decides phi of the secant predictor) and for gsALMCrisfield with a Jacobian that uses its second argument (m_deltaU is not reset). Proved for gsALMLoadControl and gsALMRiks always, for gsALMCrisfield with other Jacobians, for gsALMConsistentCrisfield with a user-set phi. Corrections in which a step ends with SolverError or OtherError, and options with an unknown bifurcation method, are not covered."},
{"property": "C99", "status": "proved", "theorems": ["C99_bisection"], "note": "For the determinant and the eigenvalue indicator; the other settings do not look at the tangent. Example: one rejected and one accepted trial."}
]}
