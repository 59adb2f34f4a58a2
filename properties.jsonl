{"id": "C01", "title": "No two curve segments are ever given out twice or overlap", "statement": "At any moment every segment that is waiting in the queue or handed out as an active correction job is bounded by two neighbouring stored points of the curve, and no two such segments (waiting or active) overlap; so a segment is never given to two workers. (init() is only called while no job is active, and each job is submitted at most once, as all drivers do.)", "quantifier": "every history of API calls (init / appendData / appendPoint / pop / submit / finishJob), every number of points and jobs, every completion order of the outstanding jobs", "why_tests_cant": "the number of histories and completion orders is infinite; a test fixes one schedule", "anchors": ["src/gsALMSolvers/gsAPALMData.hpp: init, pop, submit, appendData, finishJob"]}
{"id": "C02", "title": "Exported curve is ordered and complete", "statement": "getFlatSolution returns as many times as solutions and levels; the times are strictly increasing; and entry i of solutions is the solution stored for curve point i (points ordered along the curve).", "quantifier": "every history of API calls (init / appendData / appendPoint / pop / submit / finishJob), every number of points and jobs, every completion order of the outstanding jobs", "why_tests_cant": "the number of histories and completion orders is infinite; a test fixes one schedule", "anchors": ["src/gsALMSolvers/gsAPALMData.hpp: getFlatSolution, _buildMap, submit, appendData"]}
{"id": "C03", "title": "Submitting a job never loses or alters an earlier solution", "statement": "After submit the curve contains exactly the old points in the old order with their old solutions and levels, plus the submitted solutions, in the submitted order, strictly between the two end points of the job.", "quantifier": "every history of API calls (init / appendData / appendPoint / pop / submit / finishJob), every number of points and jobs, every completion order of the outstanding jobs; every list of submitted solutions", "why_tests_cant": "the number of histories and completion orders is infinite; a test fixes one schedule", "anchors": ["src/gsALMSolvers/gsAPALMData.hpp: submit"]}
{"id": "C04", "title": "Submitting a job changes only the length of that segment", "statement": "After submit the curve length of the submitted segment equals the sum of the submitted distances, each new sub-segment has the submitted distance as its length, and the length of every other segment between neighbouring points is unchanged (points behind the segment are translated rigidly).", "quantifier": "every history of API calls (init / appendData / appendPoint / pop / submit / finishJob), every number of points and jobs, every completion order of the outstanding jobs; every list of distances", "why_tests_cant": "the number of histories and completion orders is infinite; a test fixes one schedule", "anchors": ["src/gsALMSolvers/gsAPALMData.hpp: submit (addConstant, insert)"]}
{"id": "C05", "title": "A job's data stays valid while other jobs complete", "statement": "The start solution, previous solution and step length returned by pop for a job are still the ones that describe its segment when that job is submitted, whatever other jobs were popped, submitted or appended in between, in any order.", "quantifier": "every history of API calls (init / appendData / appendPoint / pop / submit / finishJob), every number of points and jobs, every completion order of the outstanding jobs", "why_tests_cant": "the number of histories and completion orders is infinite; a test fixes one schedule", "anchors": ["src/gsALMSolvers/gsAPALMData.hpp: pop, submit, jobTimes"]}
{"id": "C06", "title": "Job identifiers are never reused", "statement": "Every pop on a data set returns an ID different from every ID returned before on that data set, also after jobs have finished.", "quantifier": "every history of API calls (init / appendData / appendPoint / pop / submit / finishJob), every number of points and jobs, every completion order of the outstanding jobs", "why_tests_cant": "the number of histories and completion orders is infinite; a test fixes one schedule", "anchors": ["src/gsALMSolvers/gsAPALMData.hpp: pop, finishJob"]}
{"id": "C07", "title": "Refinement depth is bounded by MaxLevel", "statement": "No segment with a level above max(1,MaxLevel) is ever queued, and no stored point has such a level.", "quantifier": "every history of API calls (init / appendData / appendPoint / pop / submit / finishJob), every number of points and jobs, every completion order of the outstanding jobs; every MaxLevel", "why_tests_cant": "the number of histories and completion orders is infinite; a test fixes one schedule", "anchors": ["src/gsALMSolvers/gsAPALMData.hpp: init, submit"]}
{"id": "C08", "title": "Adaptive refinement terminates", "statement": "If every correction returns at most b solutions, then from n initial segments at most n*(1 + (b+1) + ... + (b+1)^(MaxLevel-1)) correction jobs can ever be popped, so the refinement stops without the MaxIt limit.", "quantifier": "every n, b, MaxLevel, every history and every error indicator returned by the workers", "why_tests_cant": "unbounded histories; a liveness claim", "anchors": ["src/gsALMSolvers/gsAPALMData.hpp: submit, pop"]}
{"id": "C09", "title": "The error indicators decide exactly which sub-segments are refined", "statement": "submit queues, at the next level and in order, all sub-segments when both relative errors are at least Tolerance, only the last when only the lower error is small, all but the last when only the upper error is small, none when both are small, and none at MaxLevel.", "quantifier": "every job, distance list, pair of errors, Tolerance, level", "why_tests_cant": "infinitely many inputs around the branch boundaries", "anchors": ["src/gsALMSolvers/gsAPALMData.hpp: submit l.341-380"]}
{"id": "C10", "title": "Look-up by time reports unknown times", "statement": "getReferenceByTime returns false for a time that is not the time of a stored point and does not change the data set.", "quantifier": "every data set and every time", "why_tests_cant": "universally quantified over times and states", "anchors": ["src/gsALMSolvers/gsAPALMData.hpp: getReferenceByTime"]}
{"id": "C100", "title": "After a search the solver continues with the stability of the point before it", "statement": "After a completed computeSingularPoint stabilityChange() is false, and the next step reports a change exactly if it ends at a point whose stability differs from the one of the point before the singular point (as the comment in the code promises, so that the singular point is not found again).", "quantifier": "every problem, method, options and solver state; with and without bisection and branch switching", "why_tests_cant": "The recorded sign is overwritten by the trial steps of the bisection; whether it is wrong depends on whether the last but one trial overshot.", "anchors": ["src/gsALMSolvers/gsALMBase.hpp:421-446 (_computeSingularPoint)", "src/gsALMSolvers/gsALMBase.hpp:381 (m_stabilityPrev)", "src/gsALMSolvers/gsALMBase.hpp:623-627 (stabilityChange)"]}
{"id": "C101", "title": "Newmark is stable for every step size when 2 alpha >= delta >= 1/2", "statement": "gsDynamicNewmark (linear) with 2*alpha >= delta >= 1/2, symmetric nonnegative mass, damping and stiffness, constant force and accelerations that satisfy the balance at the start: after any number of steps of any length dt, A.MA + V.KV is at most A.MA + V.KV + dt(delta-1/2) A.CA + dt^2(alpha-delta/2) A.KA of the start, and the balance holds. Without damping a step changes the energy plus dt^2(alpha/2-delta/4) A.MA exactly by -(delta-1/2)(dU.K dU + dt^2(alpha-delta/2) dA.M dA).", "quantifier": "every number of degrees of freedom, matrices, force, dt >= 0, number of steps, alpha and delta in the range", "why_tests_cant": "Growth shows only for some combinations of frequencies, step sizes and parameters, and only after many steps.", "anchors": ["src/gsDynamicSolvers/gsDynamicNewmark.hpp:19-25 (defaultOptions)", "src/gsDynamicSolvers/gsDynamicNewmark.hpp:28-74 (_step_impl, linear)"]}
{"id": "C102", "title": "Bathe's method never gains energy, for every position of the sub-step", "statement": "gsDynamicBathe (linear) with alpha=1/4, delta=1/2 and 0 < gamma < 1: from a balanced state, under a constant force, with symmetric nonnegative M, K and nonnegative C the energy V.MV/2 + U.KU/2 - F.U does not grow over any sequence of steps; one step loses exactly the energy of the second difference (1-gamma) old - substep + gamma new divided by (2-gamma)^2, plus nonnegative dissipation in the dampers.", "quantifier": "every number of degrees of freedom, matrices, gamma in (0,1), sequence of step sizes", "why_tests_cant": "unbounded number of steps and sizes; the loss formula is an identity between all states of a step", "anchors": ["src/gsDynamicSolvers/gsDynamicBathe.hpp:19-26 (defaultOptions)", "src/gsDynamicSolvers/gsDynamicBathe.hpp:29-79 (_step_impl, linear)"]}
{"id": "C103", "title": "Implicit Euler loses energy, explicit Euler gains it", "statement": "gsDynamicImplicitEuler (linear, exact inner solves): a step under a constant force loses exactly the energy of its increment plus dt V.CV at the new velocity, so the energy never grows over any sequence of steps. gsDynamicExplicitEuler (linear): a step gains exactly the energy of its increment minus dt V.CV at the old velocity, so without damping the energy never decreases, however small the steps.", "quantifier": "every number of degrees of freedom, matrices, sequence of step sizes", "why_tests_cant": "unbounded number of steps and sizes", "anchors": ["src/gsDynamicSolvers/gsDynamicImplicitEuler.hpp:23-77 (_step_impl, linear)", "src/gsDynamicSolvers/gsDynamicExplicitEuler.hpp:50-87 (_step_impl, linear)"]}
{"id": "C104", "title": "Runge-Kutta 4 does not gain energy below its stability limit", "statement": "gsDynamicRK4 (linear) on an undamped structure under a constant force: a step changes the energy exactly by -h^6/72 E3 + h^8/576 E4, where E3 and E4 are the energies of the third and fourth derivatives of the motion; if x.Kx <= omega^2 x.Mx for all x and (h omega)^2 <= 8 for every step, the energy does not grow over any number of steps.", "quantifier": "every number of degrees of freedom, matrices, number of steps and step sizes below the limit", "why_tests_cant": "The limit depends on the highest frequency of the structure, and growth may need many steps to show.", "anchors": ["src/gsDynamicSolvers/gsDynamicRK4.hpp:18-88 (_step_impl, linear)"]}
{"id": "C105", "title": "Newmark with average acceleration converges with second order", "statement": "gsDynamicNewmark (linear) with alpha=1/4, delta=1/2, constant symmetric nonnegative M, K, nonnegative C and any time-dependent force: if u(t) satisfies the equation of motion, then after any sequence of steps of sizes at most h from t to t' the error of (U,V) in the energy norm is at most the initial error plus (t'-t) h^2/12 times the largest energy norm of the third derivative of (u,u').", "quantifier": "every number of degrees of freedom, matrices, force, exact motion, sequence of step sizes", "why_tests_cant": "Convergence is a statement about all step sizes and all motions.", "anchors": ["src/gsDynamicSolvers/gsDynamicNewmark.hpp:28-74 (_step_impl, linear)"]}
{"id": "C106", "title": "Implicit Euler converges with first order", "statement": "gsDynamicImplicitEuler (linear, exact inner solves), same setting as C105 with any force: the error in the energy norm after steps of sizes at most h from t to t' is at most the initial error plus (t'-t) h/2 times the largest energy norm of the second derivative of (u,u').", "quantifier": "every number of degrees of freedom, matrices, force, exact motion, sequence of step sizes", "why_tests_cant": "Convergence is a statement about all step sizes and all motions.", "anchors": ["src/gsDynamicSolvers/gsDynamicImplicitEuler.hpp:23-77 (_step_impl, linear)"]}
{"id": "C107", "title": "Runge-Kutta 4 converges with fourth order below its stability limit", "statement": "gsDynamicRK4 (linear), undamped, constant force, steps with (h omega)^2 <= 8 where x.Kx <= omega^2 x.Mx: the error in the energy norm after steps of sizes at most h from t to t' is at most the initial error plus (t'-t) h^4/120 times the largest energy norm of the fifth derivative of (u,u').", "quantifier": "every number of degrees of freedom, matrices, exact motion, sequence of step sizes below the limit", "why_tests_cant": "Convergence is a statement about all step sizes and all motions.", "anchors": ["src/gsDynamicSolvers/gsDynamicRK4.hpp:18-88 (_step_impl, linear)"]}
{"id": "C108", "title": "Bathe converges with second order", "statement": "gsDynamicBathe (linear) with alpha=1/4, delta=1/2 and any sub-step position 0<gamma<1, constant symmetric nonnegative M, K, nonnegative C and any time-dependent force: if u(t) satisfies the equation of motion, the error of (U,V) in the energy norm after any sequence of steps of sizes at most h from t to t' is at most the initial error plus (t'-t) h^2 (gamma^2/(12(2-gamma)) + (1-gamma)^2/(6 gamma)) times the largest energy norm of the third derivative of (u,u').", "quantifier": "every number of degrees of freedom, matrices, force, exact motion, gamma, sequence of step sizes", "why_tests_cant": "Convergence is a statement about all step sizes and all motions.", "anchors": ["src/gsDynamicSolvers/gsDynamicBathe.hpp:29-79 (_step_impl, linear)", "src/gsDynamicSolvers/gsDynamicNewmark.hpp:28-74"]}
{"id": "C109", "title": "Newton converges quadratically near a solution, and solve() says so", "statement": "gsStaticNewton::solve on a nonlinear problem without relaxation: if, within 4/3 |x0| of the starting displacement, residual and tangent exist, tangent solves are exact with inverse bounded by beta, the tangent predicts the residual up to gamma |d|^2, and h = beta gamma |x0| <= 1/4 for the first increment x0 != 0, then solve answers Success after at most N iterations whenever MaxIterations >= N and the tolerances exceed h^(2^N-1) and 3/2 h^(2^(N-1)-1); the solution stays within 4/3 |x0| of the start and after k iterations the residual is at most h^(2^k-1) times the initial one.", "quantifier": "every number of unknowns, residual, tangent, starting point, load, N", "why_tests_cant": "Convergence for all problems and all tolerances; a test sees one problem.", "anchors": ["src/gsStaticSolvers/gsStaticNewton.hpp:142-193 (_solveNonlinear)", "src/gsStaticSolvers/gsStaticNewton.hpp:274-316 (_start)"]}
{"id": "C11", "title": "Look-up by curve parameter is faithful", "statement": "getReferenceByPar returns true exactly for stored curve parameters, with the solution stored there, and changes nothing.", "quantifier": "every data set and parameter", "why_tests_cant": "universally quantified over parameters and states", "anchors": ["src/gsALMSolvers/gsAPALMData.hpp: getReferenceByPar"]}
{"id": "C110", "title": "A nonlinear Newmark step converges quadratically when the step is small enough", "statement": "Let the residual, tangent, mass and (constant) damping be defined near the displacement U* predicted by Newmark's formulas, the tangent predict the residual up to gamma |d|^2, every solve be exact and enlarge norms by at most beta, and x0 be the first increment of the acceleration. If h = beta gamma (alpha dt^2)^2 |x0| <= 1/4, then a nonlinear Newmark step returns Success after at most N <= MaxIter passes as soon as TolU > 3/2 h^(2^(N-1)-1) and TolF > h^(2^N-1); the new U, V, A obey Newmark's formulas and the equation of motion at t+dt holds up to h^(2^(k+1)-1) times its defect at the start, k < N the last pass.", "quantifier": "every problem regular in this sense in a space of any dimension, every state, dt, alpha, delta, tolerances, MaxIter; Quasi off", "why_tests_cant": "A test shows that one problem converges with one step size; here convergence and its speed follow from checkable constants for all of them.", "anchors": ["src/gsDynamicSolvers/gsDynamicNewmark.hpp:77-150 (_step_impl, nonlinear)"]}
{"id": "C111", "title": "A nonlinear step of implicit Euler converges quadratically when the step is small enough", "statement": "With forces that do not depend on time, the regularity of C110 near the old displacement, exact GMRES answers that enlarge norms by at most beta, and x0 the first increment of (U,V), not longer than (U,V)+x0: if h = beta gamma dt |x0| <= 1/4, a nonlinear step of implicit Euler returns Success after at most N <= MaxIter passes (N >= 2) as soon as TolU > 3/2 h^(2^(N-1)-1) and TolF > h^(2^(N-1)-1) - one pass more than necessary, because the tested residual is the one before the last increment; the implicit equations hold up to h^(2^(k+1)-1) times the defect at the start, k < N the last pass.", "quantifier": "every problem regular in this sense in a space of any dimension, every state, dt, tolerances, MaxIter; Quasi off", "why_tests_cant": "As for C110.", "anchors": ["src/gsDynamicSolvers/gsDynamicImplicitEuler.hpp:80-164 (_step_impl, nonlinear)"]}
{"id": "C112", "title": "Load control, Riks and consistent Crisfield steps converge quadratically near the predicted point", "statement": "Let the predictor of a step succeed, and let the equations of the step be regular near the predicted point: residual and tangent exist and every solve is exact, tangent and arc-length equation together are invertible with inverse bounded by beta, and the tangent and load vector predict the residual up to gamma |x|^2. If the combined defect r0 of equilibrium and arc-length equation at the predicted point satisfies beta^2 (gamma + curvature of the arc-length equation) r0 <= h <= 1/4, then step() of LoadControl, Riks and ConsistentCrisfield returns Success. It needs at most N passes, N being the first number with h^(2^(N-1)-1) beta r0 below TolU |DU| and h^(2^N-1) r0 below TolF |(L+DL) F|. The accepted point lies within 4/3 beta r0 of the predicted one and its combined defect after pass j is at most h^(2^j-1) r0.", "quantifier": "for all problems in an arbitrary inner product space, all options without quasi iterations (any bifurcation method, verbosity, adaptivity and tolerances), all states before the step", "why_tests_cant": "Tests show convergence on chosen structures; here the number of passes, the rate and the distance to the predicted point hold for every regular problem and every state.", "anchors": ["src/gsALMSolvers/gsALMBase.hpp:353-416", "src/gsALMSolvers/gsALMRiks.hpp:68-84", "src/gsALMSolvers/gsALMConsistentCrisfield.hpp:74-87", "src/gsALMSolvers/gsALMLoadControl.hpp:48-56"]}
{"id": "C113", "title": "Load control: short enough steps from an equilibrium succeed", "statement": "From an equilibrium (U, L) around which the residual is smooth and the tangent invertible, gsALMLoadControl::step() with a small enough length returns Success after one iteration (MaxIter >= 2), with the load L + length and a residual of order length squared. So reducing the length, as the programs do, cannot go on forever there.", "quantifier": "every problem, displacement and load at equilibrium, positive tolerances, every state of the solver at that point, every length in (0, l0]", "why_tests_cant": "the smallness of the length depends on the problem; a test tries one problem and one length", "anchors": ["src/gsALMSolvers/gsALMBase.hpp:353-416", "src/gsALMSolvers/gsALMLoadControl.hpp:48-107"]}
{"id": "C114", "title": "The load-stepping loop of the programs writes only converged points", "statement": "The loop of the programs that calls step(), halves the length and repeats the step when it did not succeed, and writes the solution otherwise, writes exactly the requested number of points; consecutive points are joined by a step of length dLb / 2^j; and every point written is within the tolerances.", "quantifier": "every problem, method, length dLb, number of steps and execution of the loop", "why_tests_cant": "the claim is about every sequence of failures and repetitions", "anchors": ["examples/gsThinShell_ArcLength.cpp:1054-1241", "benchmarks/benchmark_TensionWrinkling.cpp:431-560", "benchmarks/benchmark_Roof.cpp:395-512"]}
{"id": "C115", "title": "The load-stepping loop ends once short steps succeed", "statement": "If every step ends normally and every step not longer than eps is accepted, the loop ends after at most steps * (m + 1) passes, where dLb <= 2^m eps. Under load control, from a regular equilibrium at the origin, the first point is written whatever the initial length, at the load dLb / 2^j and within the tolerance if no linear solve failed.", "quantifier": "every problem, method, length dLb, number of steps; every length for the first point", "why_tests_cant": "termination for all problems and lengths", "anchors": ["examples/gsThinShell_ArcLength.cpp:1054-1241", "benchmarks/benchmark_TensionWrinkling.cpp:431-560", "benchmarks/benchmark_Roof.cpp:395-512"]}
{"id": "C116", "title": "converged() agrees with the status of step()", "statement": "After gsALMBase::step() of an initialised solver, converged() returns true exactly if the status returned is Success.", "quantifier": "every problem, method, options and state of the solver, including failing evaluations at any point", "why_tests_cant": "failures can happen at infinitely many points of a step", "anchors": ["src/gsALMSolvers/gsALMBase.hpp:327-416", "src/gsALMSolvers/gsALMBase.h: converged"]}
{"id": "C117", "title": "The quasistatic programs write only converged points", "statement": "The load-stepping loop of quasistatic_shell_XML, which halves the length until converged() is true, writes exactly the requested number of points; each is the end of a step that succeeded within the tolerances from the point written before it, whatever failures (assembly, factorisation, linear solves) happen in between.", "quantifier": "every problem, method, length, number of steps and execution of the loop, with and without SingularPoint", "why_tests_cant": "the claim is about every sequence of failures and repetitions", "anchors": ["solvers/quasistatic_shell_XML.cpp:279-392", "solvers/quasistatic_shell_multipatch_XML.cpp:411-511"]}
{"id": "C118", "title": "The loop of the quasistatic programs ends once short steps converge", "statement": "If every step ends normally and converges once its length is at most eps, the loop of quasistatic_shell_XML ends after at most steps * (m + 1) passes, where the lengths set are at most 2^m eps. Under load control, from a regular equilibrium at the origin, the first point is written whatever the initial length, at the load length / 2^j and within the tolerance on the force.", "quantifier": "every problem, method, length, number of steps; every length for the first point", "why_tests_cant": "termination for all problems and lengths", "anchors": ["solvers/quasistatic_shell_XML.cpp:279-392", "solvers/quasistatic_shell_multipatch_XML.cpp:411-511"]}
{"id": "C119", "title": "Points written by the displacement-control programs", "statement": "The programs with displacement control (benchmark_FrustrumDC, snapping_example_shell_DC) write, at every accepted pass of their loop, a point (control.solutionU(), control.solutionL()) that is in equilibrium and whose load differs from the one before by the increment of the pass, dL0 halved as often as the step was repeated; the prescribed number of points is written (or, for the snapping program, until the strain exceeds Emax); and the displacement D the program reports is the one reached.", "quantifier": "all residuals, tangents, linear solvers, options, increments, numbers of steps and executions of the loop, nonlinear gsStaticNewton started at zero", "why_tests_cant": "The points depend on every repeated and accepted step before; a run of the program shows one history for one structure, and the drift of D only shows after a halved step.", "anchors": ["benchmarks/benchmark_FrustrumDC.cpp:340-426", "examples/snapping_example_shell_DC.cpp:418-507", "src/gsStaticSolvers/gsControlDisplacement.h:46-60"]}
{"id": "C12", "title": "Queries about a job do not change the data set", "statement": "jobLevel, jobTimes, jobPars, jobStartTime, jobStartPar and getReferenceByID leave nActive, nWaiting and all stored data unchanged, for every ID.", "quantifier": "every data set and every ID (known or unknown)", "why_tests_cant": "universally quantified over IDs and states", "anchors": ["src/gsALMSolvers/gsAPALMData.hpp: jobLevel, jobTimes, jobPars, jobStartTime, jobStartPar, getReferenceByID"]}
{"id": "C120", "title": "Checkpoints of benchmark_cylinder_DC", "statement": "The loop of benchmark_cylinder_DC always ends; D grows from point to point by at most the given increment, never passes the last checkpoint, and a point is written at every checkpoint (to 1e-8); every written point is a converged solution.", "quantifier": "all solvers (arbitrary answers of the solver at every call), all increments dL0 > 0 and all increasing lists of checkpoints", "why_tests_cant": "Termination and hitting every checkpoint must hold for every pattern of failed and repeated steps, which a run cannot enumerate.", "anchors": ["benchmarks/benchmark_cylinder_DC.cpp:373-577"]}
{"id": "C121", "title": "The displacement written by the static shell programs", "statement": "static_shell_XML and its multipatch variant plot and write a displacement in equilibrium: with the Newton-Raphson solver enabled, the residual at the written displacement is below the tolerance times the residual at zero; and the Newton-Raphson solver continues from the linear solution computed before it.", "quantifier": "all stiffness matrices, forces, residuals, tangents, linear solvers and options; DR on or off", "why_tests_cant": "The programs ignore the status of solve(), so whether the written field is a solution depends on the problem; one run shows one problem.", "anchors": ["solvers/static_shell_XML.cpp:272-296", "solvers/static_shell_multipatch_XML.cpp:355-379", "src/gsStaticSolvers/gsStaticComposite.hpp:19-47", "src/gsStaticSolvers/gsStaticNewton.hpp:101-112"]}
{"id": "C122", "title": "Times written by the dynamic programs", "statement": "The time loops of the programs (example_DynamicShell, example_DynamicShellNL, example_DynamicBeamNL, the two dynamic tutorials) write for every step the displacement at the end of the step together with the time at which it holds, and step i is computed from time i dt.", "quantifier": "all integrators (arbitrary _step), initial vectors, time steps and numbers of steps; all executions that end without exception", "why_tests_cant": "The written series looks plausible for any single problem (and is right when the problem does not depend on time); the relation between row, time and step must hold for every integrator and every number of steps.", "anchors": ["examples/example_DynamicShell.cpp:268-303", "examples/example_DynamicShellNL.cpp:290-328", "examples/example_DynamicBeamNL.cpp:320-388", "tutorials/nonlinear_shell_dynamic.cpp:175-198", "tutorials/nonlinear_solid_dynamic.cpp:157-186", "src/gsDynamicSolvers/gsDynamicBase.h:198-220"]}
{"id": "C123", "title": "The loops of the displacement-control programs end when short steps succeed", "statement": "The loops of benchmark_FrustrumDC and snapping_example_shell_DC end after at most steps*(m+1) passes when no step throws and no step of length at most eps is repeated, dL0 <= 2^m eps; near a regular origin this holds for the first point, so for every increment dL0 > 0 both programs write it, in equilibrium to the tolerance at a load -dL0/2^j (dL0/2^j); and neither program gives up: if the residual can never be assembled, no number of passes ends the loop.", "quantifier": "all increments, numbers of steps, residuals, tangents, linear solvers, options and strain limits; all executions of the loops", "why_tests_cant": "How often the increment must be halved depends on the structure; a test shows one increment, and that a loop never ends cannot be observed.", "anchors": ["benchmarks/benchmark_FrustrumDC.cpp:340-426", "examples/snapping_example_shell_DC.cpp:418-507", "src/gsStaticSolvers/gsControlDisplacement.h:46-60", "src/gsStaticSolvers/gsStaticNewton.hpp:111-182"]}
{"id": "C124", "title": "The eigenvalue programs show eigenpairs of the problem", "statement": "The programs modal_shell_XML (and its multipatch variant), gsThinShell_Modal and gsElasticity_Modal, whenever the eigenvalue computation succeeds, print ten eigenvalues of the stiffness and mass matrices, plot the mode shapes that belong to them, and write the same values to the file.", "quantifier": "all stiffness and mass matrices, solver modes, shifts, numbers of modes, plot and write options, and all libraries that return eigenpairs of the matrices they are given", "why_tests_cant": "A test runs with one number of modes; a read behind the end of the values usually prints some number and does not fail.", "anchors": ["solvers/modal_shell_XML.cpp:238-296", "solvers/modal_shell_multipatch_XML.cpp:279-353", "solvers/buckling_shell_XML.cpp:240-296", "examples/gsThinShell_Modal.cpp:515-594", "examples/gsElasticity_Modal.cpp:199-222"]}
{"id": "C125", "title": "The buckling programs print critical load factors", "statement": "If the tangent stiffness is the linear stiffness plus a part proportional to the displacement, every value y printed by the buckling programs belongs to the load factor -y at which the tangent along the linear solution is singular, in the direction of the mode plotted, and the two programs agree.", "quantifier": "all linear stiffness matrices, loads, geometric stiffness matrices, numbers of modes and options; all libraries that return eigenpairs", "why_tests_cant": "The wrong values are plausible numbers of the right order; a test needs the critical load of the structure tested, and says nothing about others.", "anchors": ["solvers/buckling_shell_XML.cpp:228-296", "solvers/buckling_shell_multipatch_XML.cpp:398-480", "src/gsEigenSolvers/gsBucklingSolver.h:101-106"]}
{"id": "C126", "title": "With SingularPoint the programs stay on the equilibrium path", "statement": "The load-stepping loop with the option SingularPoint (gsThinShell_ArcLength, benchmark_TensionWrinkling) writes exactly the requested number of points, and each is an equilibrium: the end of an accepted step from the point written before it, or the singular point found between the two; the solver leaves the primary path only at a bifurcation.", "quantifier": "all problems, methods, options, lengths before and after a bifurcation, numbers of steps, and all executions of the loop", "why_tests_cant": "Whether the stability changes, and whether the test sees a bifurcation or a limit point, depends on the structure and the step length; a run shows one history.", "anchors": ["examples/gsThinShell_ArcLength.cpp:1061-1241", "benchmarks/benchmark_TensionWrinkling.cpp:437-560", "solvers/quasistatic_shell_multipatch_XML.cpp:436-446", "src/gsALMSolvers/gsALMBase.hpp:421-472", "src/gsALMSolvers/gsALMBase.hpp:842-856"]}
{"id": "C127", "title": "A failed arc-length step repeated without a change fails the same way", "statement": "If step() of gsALMLoadControl, gsALMRiks, gsALMCrisfield (AngleMethod = previous step, Jacobian without increment) or gsALMConsistentCrisfield (user-set scaling) returns a status other than Success and is called again, any number of times, without changing the length or the solution, then every call returns the same status, and solution, previous solution and length stay the same: no member left over from the failed call changes the outcome, so a program has to reduce the length.", "quantifier": "all problems (including failing assemblies, factorisations and solves), options, states without initial guess, and numbers of repeated calls", "why_tests_cant": "the failure can occur at any point inside the predictor or any iteration, with other members overwritten each time", "anchors": ["src/gsALMSolvers/gsALMBase.hpp:327-416", "src/gsALMSolvers/gsALMCrisfield.hpp:102-164", "src/gsALMSolvers/gsALMRiks.hpp:86-134", "src/gsALMSolvers/gsALMLoadControl.hpp:58-82", "src/gsALMSolvers/gsALMConsistentCrisfield.hpp:89-138"]}
{"id": "C128", "title": "The files of the arc-length tutorials are converged points", "statement": "tutorials/nonlinear_solid_arcLength and nonlinear_shell_arcLength write one file per load step, each made from the end of a step that succeeded within the tolerances, starting at the point of the file before.", "quantifier": "all problems, options and numbers of steps", "why_tests_cant": "the tutorials do not look at the status of step(); which step fails first depends on the problem", "anchors": ["tutorials/nonlinear_solid_arcLength.cpp:132-157", "tutorials/nonlinear_shell_arcLength.cpp:153-177", "src/gsALMSolvers/gsALMBase.hpp:327-351"]}
{"id": "C129", "title": "The load stepping of benchmark_Pillow ends and reaches the full load", "statement": "Whatever the static solver does in each round (converge or not, any state), the load-stepping loop of benchmark_Pillow ends. The load factors it writes are those of converged rounds; they start with 0, increase, by at most 1/loadSteps, and the last is 1 (up to 1e-10) unless 22 rounds failed in all or the load is beyond 0.999.", "quantifier": "all behaviours of the solver (arbitrary state and outcome of each round), all numbers of load steps", "why_tests_cant": "the failures may come in any order and number; a test sees one pattern of failures", "anchors": ["benchmarks/benchmark_Pillow.cpp:293-469"]}
{"id": "C13", "title": "Branch selection picks the first branch with work", "statement": "When some branch has waiting work, getFirstNonEmptyBranch returns the lowest index of a branch with waiting work; empty() is true exactly when no branch has waiting work; when nothing waits the call is still well defined.", "quantifier": "every container", "why_tests_cant": "universally quantified over containers; the failing case is an out-of-range read that a test may not notice", "anchors": ["src/gsALMSolvers/gsAPALMDataContainer.h: empty, getFirstNonEmptyBranch"]}
{"id": "C130", "title": "Damped dynamic relaxation converges on linear problems, exactly below its stability limit", "statement": "gsStaticDR with damping c and mass coefficient alpha, 0 < c/alpha < 2, no periodic reset (ResetIt < 0), on a linear problem with residual K x* - K u, K symmetric positive definite, lumped mass M. If K/alpha lies strictly below 2(2 - c/alpha) M: (a) solve() from every start other than x* ends with Success as soon as maxIt is large enough, within a number of iterations that does not depend on maxIt; (b) the error |solution() - x*| is at most C r^n |start - x*| after n iterations, 0 < r < 1, with C and r independent of the start, the tolerances and the outcome. If instead one mode K phi = lambda M phi has lambda/alpha > 2(2 - c/alpha) and the start has a component in it: (c) for small tolerances solve() ends with the exception 1 for every maxIt and the error of solution() grows beyond every bound. (d) From a start whose residual is zero solve() always ends with the exception 1, since the ratio of kinetic energies is 0/0.", "quantifier": "all spaces, stiffnesses, masses, loads, starts, tolerances, numbers of iterations, previous states of the solver", "why_tests_cant": "A statement about all stiffness matrices, all starts and the limit of infinitely many iterations; a test sees one matrix and one number of iterations.", "anchors": ["src/gsStaticSolvers/gsStaticDR.hpp:97-145", "src/gsStaticSolvers/gsStaticDR.hpp:148-154", "src/gsStaticSolvers/gsStaticDR.hpp:186-202", "src/gsStaticSolvers/gsStaticDR.hpp:217-267"]}
{"id": "C131", "title": "computePower finds the eigenvalue of smallest magnitude", "statement": "For a symmetric problem A x = lambda B x with A positive definite, computePower returns Success with (up to a multiple of the tolerance) the eigenvalue of smallest magnitude and its eigenvector. This holds if the vector of ones has a component along that eigenvector, the next eigenvalue is separated by a factor 1/r, 100 steps with the factor r are enough and the tolerance is small against the gap; explicit error bounds. It fails (with Success) if the vector of ones has no such component, or if two eigenvalues are close.", "quantifier": "all spaces, symmetric matrices A, B, inverses, bounds m, M of A, eigenpairs (l, p), separation factors r, tolerances", "why_tests_cant": "Convergence of the iteration and the meaning of the stopping test for all problems with a spectral gap; the failing cases depend on the alignment of the start vector", "anchors": ["src/gsEigenSolvers/gsEigenProblemBase.hpp:219-258"]}
{"id": "C132", "title": "The bisection before a singular point comes close to it", "statement": "With load control and SingularPointComputeTolB not 0, let a singular point at the load lc lie within one arc length of the given point: steps that end before lc succeed and keep the number of negative pivots (eigenvalues), steps that pass lc fail or change that number. Then the bisection of computeSingularPoint hands over a load whose distance from lc is at most twice the arc length divided by 2^r, for an r of at least MaxIter/2-1, unless the termination test on the smallest pivot was met earlier.", "quantifier": "every problem, set of options with the determinant or eigenvalue indicator, start point, arc length, tolerance, singular load and number of iterations", "why_tests_cant": "A test bisects towards one singular point with one arc length and one number of iterations; the bound on the distance is a statement about all of them.", "anchors": ["src/gsALMSolvers/gsALMBase.hpp:753-840 (_bisectionSolve)", "src/gsALMSolvers/gsALMBase.hpp:737-751 (_bisectionObjectiveFunction, _bisectionTerminationFunction)"]}
{"id": "C133", "title": "example_PinchedMembrane_DWR evaluates its goal at the full load", "statement": "When the two loops of example_PinchedMembrane_DWR (arc-length steps until the load factor has passed 1, then load control from the last point before it) end, the solution used for the error estimate has a load factor between 1-1e-14 and 1, is reached from the origin by successful steps only, and its residual is below TolF times the norm of the load. The second loop ends whenever load steps short enough converge.", "quantifier": "every problem, arc-length method, option set with MaxIter at least 2, initial length and pattern of failing steps; every number of passes", "why_tests_cant": "A test runs one mesh and load; where the arc-length method passes the full load and which steps fail differs for every mesh of the refinement loop.", "anchors": ["examples/example_PinchedMembrane_DWR.cpp:405-463", "src/gsALMSolvers/gsALMBase.hpp:353-416", "src/gsALMSolvers/gsALMLoadControl.hpp:51-112"]}
{"id": "C134", "title": "Points written by benchmark_Beam and by the programs which stop at a failed step", "statement": "benchmark_Beam writes exactly the requested number of points, each the end of an arc-length step from the point before it which succeeded within the tolerances; a failed step halves the length for that step and all later ones, so that when steps of length at most eps converge, the loop ends after at most steps + m passes (m halvings bring the length below eps). benchmark_Balloon, benchmark_UniaxialTension, benchmark_MaterialTest and benchmark_Cylinder either stop with an error or use one point per step, each the end of a step of the length set which succeeded within the tolerances.", "quantifier": "every problem, method, option set, length, number of steps and pattern of failing steps", "why_tests_cant": "The benchmarks are run on one problem, where hardly any step fails; which steps fail, and what is then written, differs for every problem.", "anchors": ["benchmarks/benchmark_Beam.cpp:321-360", "benchmarks/benchmark_Balloon.cpp:342-352", "benchmarks/benchmark_UniaxialTension.cpp:332-342", "benchmarks/benchmark_MaterialTest.cpp:461-469", "benchmarks/benchmark_Cylinder.cpp:333-345"]}
{"id": "C135", "title": "The loop of example_ShearWrinkling visits the displacement targets and then ends", "statement": "example_ShearWrinkling applies the displacement D in increments of at most dL, halved after a failed step, up to the targets in Dtarget. Every row it writes is the end of a successful step() of the displacement control from the row before it, with an increment of D that is positive and at most dL and with the load of the control equal to D; failed steps leave displacement and load of the control as they were; no target is jumped over; the loop ends once the last target was reached or step+1 rows were written.", "quantifier": "every solver, every initial dL, every sorted nonempty list of targets not smaller than dL, every number of steps and every pattern of failed steps", "why_tests_cant": "which increments occur depends on where the steps fail, and the reading of an erased vector after the last target is undefined behaviour which usually goes unnoticed", "anchors": ["examples/example_ShearWrinkling.cpp:375-467", "src/gsStaticSolvers/gsControlDisplacement.h:32-97"]}
{"id": "C136", "title": "The loops of the snapping programs end at the strain Emax with converged points", "statement": "The programs snapping_example, snapping_example3D, snapping_example_shell, snapping_element, snapping_element3D and snapping_element_shell make steps, repeated with half the length when they fail, while the strain is at most Emax and fewer than step rows were written. At most step rows are written; the strain of every row but the last is at most Emax; the loop ends only with step rows or with a last row beyond Emax; every row is the end of a step that succeeded within the tolerances from the row before it, of length dLb / 2^j; and the loop ends if short steps are not repeated. benchmark_FrustrumALM and benchmark_Wrinkling, which have no strain limit, write exactly the requested number of points when they end.", "quantifier": "every problem, method, options, length, Emax, number of steps, strain function and execution of the loop", "why_tests_cant": "the claim is about every sequence of failures and repetitions", "anchors": ["examples/snapping_example.cpp:393-509", "examples/snapping_example3D.cpp:403-519", "examples/snapping_element.cpp:305-420", "examples/snapping_element3D.cpp:326-441", "examples/snapping_element_shell.cpp:317-427", "examples/snapping_example_shell.cpp:437-557", "benchmarks/benchmark_FrustrumALM.cpp:366-451", "benchmarks/benchmark_Wrinkling.cpp:921-1062"]}
{"id": "C137", "title": "Load steps with adaptive meshing", "statement": "In benchmark_Roof_DWR and benchmark_Wrinkling_DWR every load step calls step() on at most maxRefIt meshes (plus the tries that did not converge, each of which halves the arc length), the row it writes belongs to the last step() that converged, and it ends because the error estimate is in the band, or maxRefIt was reached, or nothing was refined or coarsened any more. The arc length of the run is the initial one halved once for every failure so far (it is never restored). If step() converges for all small lengths every load step ends.", "quantifier": "for every mesher, error estimator, arc-length solver, tolerances, options, initial length and number of load steps", "why_tests_cant": "The tests run none of these programs; the number of solves depends on the interleaving of failures, refinements and coarsenings over the whole run.", "anchors": ["benchmarks/benchmark_Roof_DWR.cpp:519-732", "benchmarks/benchmark_Wrinkling_DWR.cpp:728-935"]}
{"id": "C138", "title": "Load steps before the bifurcation of the wrinkling benchmark", "statement": "The first loop of benchmark_Wrinkling_DWR makes at most maxSteps load steps with consecutive indices, each a step() that converged (a failed step halves the arc length for all later ones), and ends when a bifurcation is found, when the strain leaves its limits, or after maxSteps steps.", "quantifier": "for every solver, stability test, strain, limits, maxSteps, initial length and number of passes", "why_tests_cant": "The tests do not run this program; that a loop never ends cannot be observed by running it.", "anchors": ["benchmarks/benchmark_Wrinkling_DWR.cpp:544-645"]}
{"id": "C14", "title": "Parallel driver: every dispatched job is submitted exactly once", "statement": "With any number of workers and any order in which they answer, each job sent to a worker is submitted and finished exactly once, to the branch it was popped from; when the driver sends the stop signal no job is active; a worker is never sent a job while it is computing; and all workers are back in the pool.", "quantifier": "every number of workers >=1, every schedule of worker answers, every worker result", "why_tests_cant": "exponentially many interleavings", "anchors": ["src/gsALMSolvers/gsAPALM.hpp: parallelSolve_impl, _solve_impl (MPI main loop)"]}
{"id": "C15", "title": "Parallel driver: the iteration limit and termination", "statement": "The MPI drivers dispatch at most MaxIt jobs and always terminate once every dispatched job is answered; the serial parallelSolve performs at most MaxIt corrections.", "quantifier": "every schedule and result", "why_tests_cant": "liveness over all schedules", "anchors": ["src/gsALMSolvers/gsAPALM.hpp: parallelSolve_impl, _solve_impl"]}
{"id": "C16", "title": "The serial solve obeys MaxIt", "statement": "gsAPALM::solve on one process terminates after a number of arc-length steps bounded by a function of MaxIt, Nsteps and the number of sub-intervals.", "quantifier": "every behaviour of the arc-length solver", "why_tests_cant": "non-termination cannot be tested", "anchors": ["src/gsALMSolvers/gsAPALM.hpp: _solve_impl<false> l.854-930"]}
{"id": "C17", "title": "Curve invariants hold under every parallel schedule", "statement": "After gsAPALM::solve or parallelSolve with any number of workers and any answer order, each branch satisfies the ordering, preservation and non-overlap properties above, and the time of a new end point is the current time of its start point plus its distance even if corrections completed in between.", "quantifier": "every schedule, every worker result with positive distances", "why_tests_cant": "exponentially many interleavings", "anchors": ["src/gsALMSolvers/gsAPALM.hpp: _solve_impl", "src/gsALMSolvers/gsAPALMData.hpp: submit, appendData"]}
{"id": "C18", "title": "Step-size halving conserves the requested arc length", "statement": "In a correction of a segment of length D with n sub-intervals, however often steps fail and are halved, the arc lengths requested by the steps that succeed add up to exactly D, the number of returned solutions is n plus the number of successful halved steps, and one more distance than solutions is returned.", "quantifier": "every failure pattern of the arc-length solver, every D and n>=1", "why_tests_cant": "infinitely many failure patterns", "anchors": ["src/gsALMSolvers/gsAPALM.hpp: _correction l.1052-1118"]}
{"id": "C19", "title": "A correction result is always accepted", "statement": "If every successful arc-length step advances by at least the requested length, then the result of a correction satisfies the length check made by submit.", "quantifier": "every failure pattern and solver behaviour", "why_tests_cant": "infinitely many failure patterns", "anchors": ["src/gsALMSolvers/gsAPALM.hpp: _correction", "src/gsALMSolvers/gsAPALMData.hpp: submit l.322"]}
{"id": "C20", "title": "Number of points per branch", "statement": "gsAPALM::solve(N) and serialSolve(N) store at most N unrefined (level 0) points on each branch, and exactly N when no bifurcation is found.", "quantifier": "every N, every schedule, every solver behaviour", "why_tests_cant": "universally quantified over N and schedules", "anchors": ["src/gsALMSolvers/gsAPALM.hpp: _solve_impl (K), serialSolve"]}
{"id": "C21", "title": "Per-level output contains every point", "statement": "After a solve, the per-level solution lists of a branch together contain every stored point of this branch exactly once, in the list of its own level.", "quantifier": "every number of branches, points and levels", "why_tests_cant": "depends on relation between number of branches and points, which tests with one branch and few points do not vary", "anchors": ["src/gsALMSolvers/gsAPALM.hpp: _finalize"]}
{"id": "C22", "title": "Serial solve records the curve it walked", "statement": "serialSolve stores for each branch times that are the running sums of the step distances and starts each step from the previously stored solution with the one before it as predecessor; a branch found at a bifurcation starts from the switched solution.", "quantifier": "every Nsteps and solver behaviour", "why_tests_cant": "unbounded number of steps and branches", "anchors": ["src/gsALMSolvers/gsAPALM.hpp: serialSolve"]}
{"id": "C23", "title": "A failed arc-length step leaves the solution untouched", "statement": "If gsALMBase::step returns a status other than Success, then solutionU, solutionL and the arc length are the same as before the call, so the user can retry with a smaller length; this holds for every arc-length method.", "quantifier": "every residual, Jacobian and linear solver (including failing ones), every state, every option value", "why_tests_cant": "infinitely many failure points inside the iteration", "anchors": ["src/gsALMSolvers/gsALMBase.hpp: step, _step", "src/gsALMSolvers/gsALMCrisfield.hpp", "src/gsALMSolvers/gsALMRiks.hpp", "src/gsALMSolvers/gsALMLoadControl.hpp", "src/gsALMSolvers/gsALMConsistentCrisfield.hpp"]}
{"id": "C24", "title": "A successful arc-length step satisfies the tolerances", "statement": "If step returns Success then the residual at the new (U,L), relative to the load norm of the predictor, is below TolF and the last update relative to the predictor is below TolU.", "quantifier": "every residual, Jacobian, solver, state, MaxIter", "why_tests_cant": "universally quantified over problems", "anchors": ["src/gsALMSolvers/gsALMBase.hpp: _step l.382-415, computeResidualNorms"]}
{"id": "C25", "title": "Arc-length step status reports the kind of failure", "statement": "step returns AssemblyError exactly when a residual or Jacobian evaluation failed, SolverError exactly when a factorisation or linear solve failed, NotConverged exactly when the iteration limit was reached; it never lets an exception escape and always terminates.", "quantifier": "every problem and option", "why_tests_cant": "infinitely many failure points", "anchors": ["src/gsALMSolvers/gsALMBase.hpp: step, _step, computeResidual, factorizeMatrix, solveSystem"]}
{"id": "C26", "title": "Adaptive arc length stays positive and changes by at most a factor two", "statement": "With AdaptiveLength every successful step multiplies the length by a factor in [1/2,2] (in fact by 1/2 or 1 or 2), so it stays positive over any number of steps; without it the length never changes.", "quantifier": "every number of steps, every iteration count", "why_tests_cant": "unbounded number of steps", "anchors": ["src/gsALMSolvers/gsALMBase.hpp: computeLength, resetLength"]}
{"id": "C27", "title": "Crisfield: every iterate lies on the arc-length constraint", "statement": "After every iteration of the Crisfield method in which the quadratic constraint has real roots, the total increment satisfies |DU|^2 + phi^2 |F|^2 DL^2 = length^2 exactly; hence so does a converged step, and its distance equals the arc length.", "quantifier": "every vector space dimension, residual, tangent, phi, relaxation-free iteration", "why_tests_cant": "an identity over reals for every dimension and input", "anchors": ["src/gsALMSolvers/gsALMCrisfield.hpp: iteration, computeLambdas, computeLambdasSimple, computeLambdaDOT"]}
{"id": "C28", "title": "Crisfield: complex roots are handled without leaving the constraint", "statement": "When the constraint has no real root, the fallback still produces an increment on the constraint.", "quantifier": "every dimension and input", "why_tests_cant": "an identity over reals", "anchors": ["src/gsALMSolvers/gsALMCrisfield.hpp: computeLambdasComplex, computeLambdasModified, computeLambdasEta"]}
{"id": "C29", "title": "Crisfield: the chosen root keeps moving forward", "statement": "Of the two candidates the one whose increment makes the larger inner product with the previous increment (in the metric of the constraint) is chosen, so the path does not reverse.", "quantifier": "every dimension and input", "why_tests_cant": "universally quantified", "anchors": ["src/gsALMSolvers/gsALMCrisfield.hpp: computeLambdaDOT"]}
{"id": "C30", "title": "Riks: corrections are orthogonal to the current increment", "statement": "Each Riks iteration from an increment of length l >= length gives an increment whose squared length is length^2 plus the squared length of the correction; so after an iteration the distance is never below the arc length.", "quantifier": "every dimension and input", "why_tests_cant": "an identity over reals", "anchors": ["src/gsALMSolvers/gsALMRiks.hpp: iteration, predictor", "src/gsALMSolvers/gsALMRiks.h: distance"]}
{"id": "C31", "title": "Consistent Crisfield: linearised constraint", "statement": "Each consistent-Crisfield iteration gives an increment whose squared constraint value exceeds length^2 by exactly the squared constraint value of the correction.", "quantifier": "every dimension and input", "why_tests_cant": "an identity over reals", "anchors": ["src/gsALMSolvers/gsALMConsistentCrisfield.hpp: iteration, predictor"]}
{"id": "C32", "title": "Load control: the load factor grows by the arc length", "statement": "Every successful load-control step started without an initial guess increases solutionL by exactly the arc length; a failed one leaves it unchanged.", "quantifier": "every problem, any number of steps", "why_tests_cant": "unbounded number of steps", "anchors": ["src/gsALMSolvers/gsALMLoadControl.hpp"]}
{"id": "C33", "title": "An initial guess is used for one step only", "statement": "After setInitialGuess the guess influences only the next step.", "quantifier": "every sequence of steps", "why_tests_cant": "depends on history", "anchors": ["src/gsALMSolvers/gsALMLoadControl.hpp: predictorGuess", "src/gsALMSolvers/gsALMRiks.hpp: predictorGuess", "src/gsALMSolvers/gsALMConsistentCrisfield.hpp: predictorGuess", "src/gsALMSolvers/gsALMBase.hpp: _step l.365"]}
{"id": "C34", "title": "Stability report has the documented sign", "statement": "stability() is +1 for a stable and -1 for an unstable point (smallest stability indicator negative), isStable() is true exactly for stable points, and stabilityChange() is true exactly when the last step changed between stable and unstable.", "quantifier": "every spectrum", "why_tests_cant": "universally quantified over spectra", "anchors": ["src/gsALMSolvers/gsALMBase.hpp: stability, stabilityChange", "src/gsALMSolvers/gsALMBase.h: isStable, stability"]}
{"id": "C35", "title": "Verbosity does not change results", "statement": "Running the same steps with Verbose on or off gives the same solutions, statuses and stabilityChange answers.", "quantifier": "every problem and history", "why_tests_cant": "relational property over all runs", "anchors": ["src/gsALMSolvers/gsALMBase.hpp: _step", "src/gsALMSolvers/gsALMCrisfield.hpp: stepOutput"]}
{"id": "C36", "title": "Bisection and singular-point search restore the solver settings", "statement": "After computeSingularPoint the arc length and the adaptive switch are the ones set before the call, and the status returned describes this call.", "quantifier": "every problem, including failing evaluations at any point", "why_tests_cant": "infinitely many failure points", "anchors": ["src/gsALMSolvers/gsALMBase.hpp: _bisectionSolve, computeSingularPoint"]}
{"id": "C37", "title": "Branch switching moves by the prescribed perturbation", "statement": "switchBranch moves the displacement along the buckling mode by exactly 1/tau, keeps the load factor, and clears the history of the last increment.", "quantifier": "every mode and tau", "why_tests_cant": "universally quantified", "anchors": ["src/gsALMSolvers/gsALMBase.hpp: switchBranch"]}
{"id": "C38", "title": "Newton: Success means converged", "statement": "gsStaticNewton::solve returns Success only if the residual at solution() is below TolF relative to the start and the last update is below TolU, and solution() is then the start plus the update.", "quantifier": "every residual, Jacobian, solver, option", "why_tests_cant": "universally quantified over problems", "anchors": ["src/gsStaticSolvers/gsStaticNewton.hpp: _solveNonlinear, solveNonlinear"]}
{"id": "C39", "title": "Newton: statuses and containment of failures", "statement": "gsStaticNewton::solve never lets an exception escape, always terminates for MaxIterations>=0, returns AssemblyError / SolverError / NotConverged according to the kind of failure, and a failed solve does not change solution().", "quantifier": "every problem, every failure point", "why_tests_cant": "infinitely many failure points", "anchors": ["src/gsStaticSolvers/gsStaticNewton.hpp"]}
{"id": "C40", "title": "Newton: exact on linear problems", "statement": "On a residual F-KU with an exact linear solver, solve with MaxIterations>=2 succeeds and solution() is the exact solution, from every start vector.", "quantifier": "every dimension, K invertible, F, start", "why_tests_cant": "universally quantified", "anchors": ["src/gsStaticSolvers/gsStaticNewton.hpp"]}
{"id": "C41", "title": "Load factor of static solvers defaults to one", "statement": "A solver constructed with a load-parameterised residual solves at load factor one unless setLoad is called.", "quantifier": "every problem", "why_tests_cant": "constructor order effect, state dependent", "anchors": ["src/gsStaticSolvers/gsStaticNewton.h", "src/gsStaticSolvers/gsStaticDR.h", "src/gsStaticSolvers/gsStaticBase.h: reset"]}
{"id": "C42", "title": "Dynamic relaxation: energy, equilibrium and scheme", "statement": "Kinetic energy is never negative; after each kinetic peak the velocity is zero; an iterate with zero velocity stays fixed exactly when it is an equilibrium. A run is the explicit central-difference scheme with kinetic damping: it starts at the stored displacement (plus the update given by setUpdate), stops the motion exactly when the kinetic energy drops (undamped case) or every ResetIt iterations, and energies() and solution() are those of that scheme.", "quantifier": "every positive mass, damping, residual, number of iterations", "why_tests_cant": "unbounded iterations", "anchors": ["src/gsStaticSolvers/gsStaticDR.hpp:72-145 (solve, _solve)", "src/gsStaticSolvers/gsStaticDR.hpp:186-267 (_iteration, _peak, _start)"]}
{"id": "C43", "title": "Dynamic relaxation: Success means converged and failures are reported", "statement": "solve returns Success only when residual, energy and update criteria hold, and reports failures through its status (no exception escapes).", "quantifier": "every problem and option", "why_tests_cant": "infinitely many failure points", "anchors": ["src/gsStaticSolvers/gsStaticDR.hpp: solve, _solve"]}
{"id": "C44", "title": "Dynamic relaxation: reset restores the configured scheme", "statement": "reset() followed by solve behaves as initialize() followed by solve.", "quantifier": "every alpha, damping and problem", "why_tests_cant": "relational over all problems", "anchors": ["src/gsStaticSolvers/gsStaticDR.hpp: reset, initialize"]}
{"id": "C45", "title": "Composite solver: stops at the first failure and chains updates", "statement": "gsStaticComposite::solve runs the solvers in order, each starting from the update of its predecessor, returns the first non-Success status without running later solvers, sums the iterations, and on Success reports the solution of the last solver.", "quantifier": "every list of solvers and every behaviour of them", "why_tests_cant": "unbounded lists", "anchors": ["src/gsStaticSolvers/gsStaticComposite.hpp: solve"]}
{"id": "C46", "title": "Optimisation solver reports its status", "statement": "After gsStaticOpt::solve, status() equals the returned status and converged() is true exactly on Success, and a repeated solve from a reset displacement starts from that displacement.", "quantifier": "every problem", "why_tests_cant": "history dependent", "anchors": ["src/gsStaticSolvers/gsStaticOpt.hpp: solve"]}
{"id": "C47", "title": "Control displacement: a failed step is a no-op", "statement": "gsControlDisplacement::step(dL) that fails leaves load and displacement unchanged; over any sequence of steps the load is the sum of the increments of the successful steps.", "quantifier": "every sequence of steps and solver behaviour", "why_tests_cant": "unbounded sequences", "anchors": ["src/gsStaticSolvers/gsControlDisplacement.h: step"]}
{"id": "C48", "title": "Newmark: dynamic equilibrium and update formulas", "statement": "A linear Newmark step with exact linear solve satisfies M A + C V + K U = F(t+dt) and the two Newmark update formulas for every alpha, delta.", "quantifier": "every dimension, M, C, K, F, state, dt", "why_tests_cant": "identity over reals", "anchors": ["src/gsDynamicSolvers/gsDynamicNewmark.hpp: _step_impl (linear)"]}
{"id": "C49", "title": "Newmark: average acceleration conserves energy", "statement": "With alpha=1/4, delta=1/2, no damping and no load, the energy V.MV + U.KU is the same after any number of steps, for symmetric M and K.", "quantifier": "every number of steps, dimension, dt", "why_tests_cant": "unbounded number of steps", "anchors": ["src/gsDynamicSolvers/gsDynamicNewmark.hpp"]}
{"id": "C50", "title": "Nonlinear integrators agree with the linear ones on linear problems", "statement": "For R = F - K U the nonlinear variants of Newmark, RK4, explicit Euler and Bathe give the result of the linear variants.", "quantifier": "every dimension, problem, dt", "why_tests_cant": "relational over all problems", "anchors": ["src/gsDynamicSolvers/gsDynamicNewmark.hpp", "src/gsDynamicSolvers/gsDynamicRK4.hpp", "src/gsDynamicSolvers/gsDynamicExplicitEuler.hpp", "src/gsDynamicSolvers/gsDynamicBathe.hpp"]}
{"id": "C51", "title": "Bathe: equilibrium and second-order consistency", "statement": "A linear Bathe step satisfies M A + C V + K U = F(t+dt), and its velocity and acceleration formulas reproduce the derivative of every quadratic motion exactly, for every gamma.", "quantifier": "every gamma in (0,1), dt>0, dimension", "why_tests_cant": "identity over reals", "anchors": ["src/gsDynamicSolvers/gsDynamicBathe.hpp"]}
{"id": "C52", "title": "Runge-Kutta 4 is the fourth-order Taylor polynomial on linear problems", "statement": "For a linear autonomous system x'=Lx one step gives (1 + hL + h^2L^2/2 + h^3L^3/6 + h^4L^4/24) x.", "quantifier": "every dimension, L, h", "why_tests_cant": "identity over all operators", "anchors": ["src/gsDynamicSolvers/gsDynamicRK4.hpp"]}
{"id": "C53", "title": "Wilson: a body in free motion moves with its velocity", "statement": "With no stiffness, damping or load, a step of length dt from zero acceleration moves the displacement by dt times the velocity.", "quantifier": "every velocity and dt", "why_tests_cant": "universally quantified", "anchors": ["src/gsDynamicSolvers/gsDynamicWilson.hpp"]}
{"id": "C54", "title": "Implicit Euler: the step solves the implicit equations", "statement": "A step returns U,V with U = Uold + dt V and M (V - Vold) = dt (F(t+dt) - C V - K U).", "quantifier": "every dimension, problem, dt", "why_tests_cant": "identity over reals", "anchors": ["src/gsDynamicSolvers/gsDynamicImplicitEuler.hpp"]}
{"id": "C55", "title": "Time integration: clock and failed steps", "statement": "step(dt) advances time() by dt exactly when the step is successful, and a step that fails leaves displacement, velocity, acceleration and time unchanged; the const step does not change the object.", "quantifier": "every integrator behaviour, every sequence of steps", "why_tests_cant": "infinitely many failure points", "anchors": ["src/gsDynamicSolvers/gsDynamicBase.h: step"]}
{"id": "C56", "title": "XBraid: state packing is lossless", "statement": "Packing displacement, velocity and acceleration into one vector and into the message buffer and unpacking it gives the same three vectors, and the declared buffer size fits the data.", "quantifier": "every size and content", "why_tests_cant": "universally quantified over sizes", "anchors": ["src/gsDynamicSolvers/gsDynamicXBraid.h: Init, Step, BufSize, BufPack, BufUnpack"]}
{"id": "C57", "title": "Eigen solvers: shift does not change the spectrum", "statement": "compute(shift) returns eigenpairs of the unshifted pair (A,B) for every shift.", "quantifier": "every A, B, shift", "why_tests_cant": "universally quantified", "anchors": ["src/gsEigenSolvers/gsEigenProblemBase.hpp: compute, computeSparse"]}
{"id": "C58", "title": "Eigen solvers: failed assembly is reported", "statement": "If assembling the operators fails, every compute function returns AssemblyError and produces no values.", "quantifier": "every problem with a failing operator", "why_tests_cant": "failure injection at every evaluation", "anchors": ["src/gsEigenSolvers/gsBucklingSolver.h: initializeMatrix", "src/gsEigenSolvers/gsEigenProblemBase.hpp"]}
{"id": "C59", "title": "Power iteration returns an eigenpair on convergence", "statement": "A fixed point of the power iteration is an eigenpair of (A,B) with the returned value; when the start vector is an eigenvector it succeeds.", "quantifier": "every dimension, A, B", "why_tests_cant": "universally quantified", "anchors": ["src/gsEigenSolvers/gsEigenProblemBase.hpp: computePower"]}
{"id": "C60", "title": "Output files are rectangular", "statement": "After init and any number of add calls every row of the file has as many cells as the header.", "quantifier": "every number of points, columns, rows", "why_tests_cant": "unbounded histories", "anchors": ["src/gsStructuralAnalysisTools/gsStructuralAnalysisUtils.h: gsStructuralAnalysisOutput"]}
{"id": "C61", "title": "Panel geometries are placed at the requested point", "statement": "Shifting the origin arguments of a panel creator by a vector shifts every control point by that vector.", "quantifier": "every size and origin", "why_tests_cant": "universally quantified over reals", "anchors": ["src/gsStructuralAnalysisTools/gsPanelCreator.hpp"]}
{"id": "C62", "title": "Panel geometries are conforming", "statement": "Every interface declared between two patches joins sides whose control points coincide.", "quantifier": "every size", "why_tests_cant": "universally quantified over reals", "anchors": ["src/gsStructuralAnalysisTools/gsPanelCreator.hpp"]}
{"id": "C63", "title": "Message protocol between main and workers", "statement": "For every job the sequence of messages a worker receives is the one main sends (same kind and order), and the data received (distances, solutions, errors, entry, reference) equal the data sent, for every number and size of solutions.", "quantifier": "every size, job kind, level", "why_tests_cant": "universally quantified over sizes; buffer reuse depends on timing", "anchors": ["src/gsALMSolvers/gsAPALM.hpp: _sendMainToWorker, _recvMainToWorker, _sendWorkerToMain, _recvWorkerToMain"]}
{"id": "C64", "title": "pop always succeeds while work is waiting and returns the first waiting segment", "statement": "While empty() is false, pop() does not fail; it removes exactly the first waiting segment, makes it an active job, keeps the stored curve, and returns the stored start solution of the segment and, as length, the time difference of its ends (correction) or the data set's length (initiation, level 0).", "quantifier": "every reachable data set with a non-empty queue", "why_tests_cant": "universally quantified over histories: pop dereferences map look-ups that only an invariant shows to succeed", "anchors": ["src/gsALMSolvers/gsAPALMData.hpp: pop, addStartPoint, appendPoint, init"]}
{"id": "C65", "title": "The main process never fails", "statement": "With any number of workers and any order of answers that have positive distances and cover the requested length, the main process of solve and parallelSolve performs no out-of-range access, no failed assertion, no failed check and no undefined read.", "quantifier": "every schedule, number of workers, every such answer", "why_tests_cant": "exponentially many interleavings", "anchors": ["src/gsALMSolvers/gsAPALM.hpp: parallelSolve_impl, _solve_impl (MPI)", "src/gsALMSolvers/gsAPALMData.hpp:291-360"]}
{"id": "C66", "title": "The parallel drivers can be called again", "statement": "A second call of parallelSolve or solve on the same object again sends a worker a new job only after it answered the previous one.", "quantifier": "every sequence of driver calls", "why_tests_cant": "needs several processes and repeated calls; the effect depends on message timing", "anchors": ["src/gsALMSolvers/gsAPALM.hpp: l.280, l.566 m_workers.push"]}
{"id": "C67", "title": "solve works when branches exist already", "statement": "solve called on an object that has branches from an earlier serialSolve or solve processes initiations of every branch without invalid access.", "quantifier": "every number of existing branches", "why_tests_cant": "the failing access is an out-of-range read and write of a vector, which a test may not notice", "anchors": ["src/gsALMSolvers/gsAPALM.hpp: l.542-544, 648, 834-931 (K)"]}
{"id": "C68", "title": "Only converged solutions are stored by a correction", "statement": "Every solution returned by a correction of a segment is the solution after an arc-length step that reported Success.", "quantifier": "every solver behaviour", "why_tests_cant": "depends on which of the error statuses the solver reports in the middle of a correction", "anchors": ["src/gsALMSolvers/gsAPALM.hpp: _correction l.1062-1083"]}
{"id": "C69", "title": "Halving terminates", "statement": "If all arc-length steps shorter than some positive length converge, then a correction and an initiation make finitely many arc-length steps.", "quantifier": "every solver behaviour meeting the assumption", "why_tests_cant": "termination for all failure patterns", "anchors": ["src/gsALMSolvers/gsAPALM.hpp: _correction l.1052-1118, _initiation l.960-985"]}
{"id": "C70", "title": "A correction that ends on the reference keeps the curve valid", "statement": "A correction whose last solution coincides with the reference solution is stored without making two points share one curve parameter.", "quantifier": "every segment and number of sub-intervals", "why_tests_cant": "needs an exact coincidence of solutions which tests do not produce", "anchors": ["src/gsALMSolvers/gsAPALMData.hpp: submit l.285-400", "src/gsALMSolvers/gsAPALM.hpp: _correction l.1120-1140"]}
{"id": "C71", "title": "Serial solve prepares the parallel solve", "statement": "After serialSolve(N) every branch is valid input for parallelSolve: strictly increasing times, unique points, all segments waiting for correction.", "quantifier": "every N and solver behaviour", "why_tests_cant": "depends on where bifurcations are found", "anchors": ["src/gsALMSolvers/gsAPALM.hpp: serialSolve l.142-218"]}
{"id": "C72", "title": "A located singular point is an equilibrium with a singular tangent", "statement": "When the search for a singular point reports convergence, the tangent stiffness at the returned displacement maps the reported mode to a vector below the requested tolerance, and the returned displacement and load factor are in equilibrium.", "quantifier": "every problem, starting point, mode and tolerance", "why_tests_cant": "a run on one structure cannot show that convergence implies both conditions for every structure", "anchors": ["src/gsALMSolvers/gsALMBase.hpp: _extendedSystemSolve l.629-703"]}
{"id": "C73", "title": "The extended iteration solves the linearised extended system", "statement": "With exact linear solves, each extended iteration yields increments that satisfy the linearised equilibrium, the null-vector equation linearised with the difference quotient of the tangent along the mode, and the linearised unit length of the mode.", "quantifier": "every problem, point and mode", "why_tests_cant": "convergence on one example also happens with a wrong right-hand side, only slower", "anchors": ["src/gsALMSolvers/gsALMBase.hpp: _extendedSystemIteration l.705-735"]}
{"id": "C74", "title": "The bifurcation test looks at the inverse-power iterate", "statement": "isBifurcation leaves in solutionV() the unit vector of the SingularPointTestIt-th inverse-power iterate w of the vector of ones, and answers true exactly when |w.F| is below SingularPointTestTol times the length of w.", "quantifier": "every tangent, load vector, number of iterations and tolerance", "why_tests_cant": "universally quantified over matrices and iteration counts", "anchors": ["src/gsALMSolvers/gsALMBase.hpp: _testSingularPoint l.474-511, isBifurcation l.513-518"]}
{"id": "C75", "title": "Time integration: accelerations() after a step", "statement": "After a step that returns Success the accelerations satisfy the momentum balance M A = F(t+dt) - C V - K U with the returned velocities and displacements.", "quantifier": "every problem, integrator, step size, state", "why_tests_cant": "infinitely many problems; the tests compare displacements only", "anchors": ["src/gsDynamicSolvers/*.hpp: _step"]}
{"id": "C76", "title": "Time integration: Success of a nonlinear step", "statement": "If the nonlinear step of an integrator returns Success, the iterations inside of it converged: the momentum residual at the returned vectors is below TolF relative to that of the predictor, and U and V follow the integrator's formulas.", "quantifier": "every problem, options, state", "why_tests_cant": "quantifies over all nonlinear problems", "anchors": ["src/gsDynamicSolvers/gsDynamicNewmark.hpp: l.77-157", "gsDynamicBathe.hpp l.82-175", "gsDynamicWilson.hpp l.57-84"]}
{"id": "C77", "title": "XBraid: the wrapper steps as the integrator does", "statement": "Stepping the wrapper over the intervals of a time grid on the finest level, from the vector made by Init, gives the displacement, velocity, acceleration of calling step on the integrator over the same grid.", "quantifier": "every integrator, dimension, time grid", "why_tests_cant": "all grids and integrators", "anchors": ["src/gsDynamicSolvers/gsDynamicXBraid.h: Init, Step"]}
{"id": "C78", "title": "XBraid: refinement factor", "statement": "A step on the finest level asks for a refinement factor of at least one: two if the step failed, otherwise the least whole number whose square is at least 1000 times the error estimate, one without estimate; on coarser levels none.", "quantifier": "every status, level, error estimate", "why_tests_cant": "real-valued estimate", "anchors": ["src/gsDynamicSolvers/gsDynamicXBraid.h: Step l.171-192"]}
{"id": "C79", "title": "Buckling: load factor does not depend on the scaling", "statement": "The load factor obtained from a buckling eigenvalue y, namely y times the scaling of the linear pre-solve (up to the sign convention), makes the tangent matrix singular on the mode, for every scaling.", "quantifier": "every stiffness, geometric stiffness, load, scaling", "why_tests_cant": "universally quantified over matrices and reals", "anchors": ["src/gsEigenSolvers/gsBucklingSolver.h: initializeMatrix", "src/gsEigenSolvers/gsEigenProblemBase.hpp: compute"]}
{"id": "C80", "title": "Eigen solvers: no stale results", "statement": "After a computation that did not return Success, values() and vectors() do not return the results of an earlier computation.", "quantifier": "every history of computations", "why_tests_cant": "unbounded histories, failure injection", "anchors": ["src/gsEigenSolvers/gsEigenProblemBase.hpp: compute, computeSparse, computePower"]}
{"id": "C81", "title": "Output precision", "statement": "setPrecision(n) determines the number of significant digits of the values written by later add calls.", "quantifier": "every n, every history", "why_tests_cant": "unbounded histories", "anchors": ["src/gsStructuralAnalysisTools/gsStructuralAnalysisUtils.h: setPrecision, add, _writePointData, _writeOtherData"]}
{"id": "C82", "title": "A fitted curve goes through the data", "statement": "After compute() of gsSolutionFitter, slice(t) at the time t of any data point returns that data point.", "quantifier": "every data set, degree and parametrisation; every solver of the constrained fit that meets its constraints", "why_tests_cant": "Depends on the spacing of the times and on the degree; equidistant data with degree 1 or 2 pass.", "anchors": ["src/gsStructuralAnalysisTools/gsSolutionFitter.h:86-91 (slice)", "src/gsStructuralAnalysisTools/gsSolutionFitter.h:148-231 (compute)"]}
{"id": "C83", "title": "Knot vector of a fit", "statement": "Whenever compute() of gsSolutionFitter succeeds, the knot vector starts and ends with deg+1 copies of the first and last time, has exactly n-deg-1 knots in between, strictly increasing and strictly inside, for each of the three parametrisations; so the collocation system is square and the fit lives on the range of the data. Parametrisation 0 spaces the knots evenly; values other than 0, 1, 2 are rejected.", "quantifier": "every history of constructor, addDataPoint, setDegree, options; every number of points and every spacing", "why_tests_cant": "Ordering and number of knots for all spacings and degrees.", "anchors": ["src/gsStructuralAnalysisTools/gsSolutionFitter.h:148-207 (compute)"]}
{"id": "C84", "title": "Data points of gsSolutionFitter", "statement": "addDataPoint(point,t) stores the point at the time t, keeps the data ordered by time and leaves the other points unchanged; a fit exists for any data set with more points than the degree.", "quantifier": "every history of calls; all times", "why_tests_cant": "Repeated times and data sets without the time 0.", "anchors": ["src/gsStructuralAnalysisTools/gsSolutionFitter.h:26-40 (constructor)", "src/gsStructuralAnalysisTools/gsSolutionFitter.h:61-65 (addDataPoint)", "src/gsStructuralAnalysisTools/gsSolutionFitter.h:157 (m_data.at(0))"]}
{"id": "C85", "title": "nearestParam", "statement": "nearestParam returns a parameter of the support of the fit whose point on the curve is at least as close to the given solution as the end of the Newton search from every trial point. On a straight curve no point of the support is closer.", "quantifier": "every curve, point, support, number of iterations and list of trial points", "why_tests_cant": "The step test precedes the clamping to the support, visible only in a tiny range of points.", "anchors": ["src/gsStructuralAnalysisTools/gsSolutionFitter.h:93-146 (nearestParam)"]}
{"id": "C86", "title": "Slices of the space-time fit", "statement": "After compute() of gsSpaceTimeFitter, slice(xi) at the parametric time of step k returns the load and the solution coefficients of step k.", "quantifier": "every data set, all dimensions and degrees; every exact solver of the collocation system", "why_tests_cant": "Depends on dimensions and on the spacing of the parametric times.", "anchors": ["src/gsStructuralAnalysisTools/gsSpaceTimeFitter.h:101-109 (slice)", "src/gsStructuralAnalysisTools/gsSpaceTimeFitter.h:111-163 (compute)"]}
{"id": "C87", "title": "Points added to the space-time fitter", "statement": "addDataPoint(solution,time,ptime) followed by compute() gives a fit that uses the new solution and time.", "quantifier": "every fitter and every added point", "why_tests_cant": "The result looks like a valid fit of the old data.", "anchors": ["src/gsStructuralAnalysisTools/gsSpaceTimeFitter.h:46-54 (addDataPoint)", "src/gsStructuralAnalysisTools/gsSpaceTimeFitter.h:111-163 (compute)"]}
{"id": "C88", "title": "reset of the static solvers", "statement": "After reset() a static solver holds zero displacement, update and load, its status is NotStarted, and it answers every later sequence of calls as a newly constructed one; gsControlDisplacement::reset/setZero and gsStaticComposite::reset return to the start as well.", "quantifier": "every problem, history before and sequence of calls after", "why_tests_cant": "relational property over all histories", "anchors": ["src/gsStaticSolvers/gsStaticBase.h:136-144", "src/gsStaticSolvers/gsStaticNewton.hpp:243-248", "src/gsStaticSolvers/gsStaticComposite.hpp:111-115", "src/gsStaticSolvers/gsControlDisplacement.h:75-86"]}
{"id": "C89", "title": "Stability indicator of the static solvers", "statement": "indicator(J) is the smallest value of the stability vector of J, stabilityVec(J) is that vector; with the eigenvalue method indicator(J) is the smallest eigenvalue, so it is negative exactly for an unstable J; a failed computation is reported.", "quantifier": "every matrix, shift, solver behaviour and history", "why_tests_cant": "all spectra; failures of the eigenvalue solver", "anchors": ["src/gsStaticSolvers/gsStaticBase.h:146-235"]}
{"id": "C90", "title": "gsAPALM with an actual arc-length solver", "statement": "Workers that run correction_ and initiation with a Riks solver return only results the main process accepts: at least the requested length is covered, every stored step has a positive distance, and the main process never aborts, whatever the problem, the schedule and the states of the workers. The same holds for every arc-length method and every status a step can return.", "quantifier": "every problem, option set with MaxIter >= 2, number of workers, schedule, worker state; every method and status for the last sentence", "why_tests_cant": "all schedules, problems and failure patterns of the solver; the interplay of two classes", "anchors": ["src/gsALMSolvers/gsAPALM.hpp:935-1010", "src/gsALMSolvers/gsAPALM.hpp:1014-1160", "src/gsALMSolvers/gsALMRiks.h:81-86", "src/gsALMSolvers/gsALMCrisfield.h:79-85", "src/gsALMSolvers/gsAPALMData.hpp:291-360"]}
{"id": "C91", "title": "The first trial point of a step follows the tangent or the secant with the set length", "statement": "The first point a step tries lies on the tangent (or on the secant through the previous point) at the distance getLength() from the start, measured in the norm of the method, and in the direction of the previous step; a step repeated after setLength(shorter) starts from a nearer point.", "quantifier": "every problem, method with a predictor, options, state", "why_tests_cant": "all tangents and histories; sign choice by the previous step", "anchors": ["src/gsALMSolvers/gsALMBase.h:118-122", "src/gsALMSolvers/gsALMCrisfield.hpp:111-165", "src/gsALMSolvers/gsALMRiks.hpp:98-135", "src/gsALMSolvers/gsALMConsistentCrisfield.hpp:102-139"]}
{"id": "C92", "title": "Wilson's method: interpolated acceleration", "statement": "A step of gsDynamicWilson of length dt takes the acceleration at t+dt from the straight line between the old acceleration and the one which satisfies the equation of motion at t+gamma*dt (reached by Newmark's formulas); displacement and velocity at t+dt follow from it by Newmark's formulas.", "quantifier": "every problem, option set, time, step and state", "why_tests_cant": "universally quantified over problems and states; the intermediate state is not visible", "anchors": ["src/gsDynamicSolvers/gsDynamicWilson.hpp:29-84"]}
{"id": "C93", "title": "Nonlinear time steps are Newton iterations; Quasi keeps the matrices", "statement": "A nonlinear step of Newmark, of Bathe (second stage) or of implicit Euler starts from the documented predictor and iterates with the damping and stiffness matrices of the current displacement at t+dt; with Quasi the matrices are those of the last iteration whose number is a multiple of QuasiIterations. It returns Success at the first iteration that meets both tolerances, and NotConverged only after MaxIter iterations none of which met them.", "quantifier": "every problem, option set, time, step, state and number of iterations", "why_tests_cant": "unbounded number of iterations; all callbacks and solvers", "anchors": ["src/gsDynamicSolvers/gsDynamicNewmark.hpp:77-150", "src/gsDynamicSolvers/gsDynamicBathe.hpp:82-175", "src/gsDynamicSolvers/gsDynamicImplicitEuler.hpp:80-164"]}
{"id": "C94", "title": "One worker computes what one process computes", "statement": "parallelSolve with one worker process ends with the same solution data, after the same jobs, as parallelSolve on a single process with the same arc-length solver. The same holds for solve.", "quantifier": "every solution data, every behaviour of the arc-length solver, every MaxIt", "why_tests_cant": "needs MPI and holds for every number and kind of jobs", "anchors": ["src/gsALMSolvers/gsAPALM.hpp:243-472", "src/gsALMSolvers/gsAPALM.hpp:522-932"]}
{"id": "C95", "title": "A branch found at a bifurcation starts with the length of its parent times the multipliers", "statement": "When solve finds a bifurcation and creates a branch, the arc length the branch starts with is the length of the step that found it times BranchLengthMultiplier times BifLengthMultiplier.", "quantifier": "every arc-length solver, every initiation with any number of repeated steps, one process", "why_tests_cant": "depends on failures of the nonlinear solver", "anchors": ["src/gsALMSolvers/gsAPALM.hpp:890-903", "src/gsALMSolvers/gsAPALM.hpp:935-1010", "src/gsALMSolvers/gsALMBase.h:100-118"]}
{"id": "C96", "title": "All processes of solve() and parallelSolve() end, whatever the network does, and main has all answers", "statement": "Run solve() or parallelSolve() on P MPI processes whose workers answer every well-posed job acceptably (a correction covers the length it was given, an initiation returns one solution, or two at a bifurcation) and whose answers are sent before their variables are overwritten, or have one solution (C63). Then, whatever the order in which the processes run, messages arrive and MPI_ANY_SOURCE picks a worker, and whether sends are buffered or not, the number of steps is bounded; no reachable state is a deadlock other than the end of all processes; at the end no message is left, no receive is posted, each worker has received exactly the jobs main sent it in that order, and main's curves are those of an execution of the driver in which each answer is the one the worker computed from that job with its own solver. Conversely every order of the answers is the result of some run.", "quantifier": "all settings, prepared containers, numbers of processes, worker solvers (with any state and invariant), buffering rules, interleavings", "why_tests_cant": "a test sees the few interleavings its MPI library happens to produce; deadlocks from MPI_ANY_SOURCE, rendezvous sends or tags shared by consecutive messages depend on timing and message size", "anchors": ["src/gsALMSolvers/gsAPALM.hpp:243-419", "src/gsALMSolvers/gsAPALM.hpp:522-812", "src/gsALMSolvers/gsAPALM.hpp:1170-1675"]}
{"id": "C97", "title": "The curves of parallelSolve() do not depend on the order of the answers nor on the number of processes", "statement": "Run parallelSolve() twice on the same prepared curves, with any numbers of processes and MaxIt, so that every correction (a function of level, length, start, previous and reference solution) is answered the same way in both. If both runs end with an empty queue (always the case when MaxIt exceeds the number of jobs the levels allow), then for every branch the same times, solutions and levels are stored, however the answers were interleaved; the same holds between the serial and the parallel driver, and for the runs of all processes on the network. If MaxIt cuts a run short, the curves can depend on the order.", "quantifier": "all settings, prepared containers, numbers of processes, correction functions, orders of the answers, interleavings of the network", "why_tests_cant": "the order in which MPI_ANY_SOURCE picks answers is not under a test's control, and a test that repeats a run sees the few orders its machine produces", "anchors": ["src/gsALMSolvers/gsAPALMData.hpp:215-252", "src/gsALMSolvers/gsAPALMData.hpp:291-433", "src/gsALMSolvers/gsAPALM.hpp:282-377"]}
{"id": "C98", "title": "A step after setLength, setSolution and setPrevious does not depend on the history of the solver", "statement": "Take two arc-length solvers of the same method for the same problem and options, whatever steps they made before (same adaptivity settings and user-set phi, no initial guess). After setLength(l), setSolution(U,L), setPrevious(U',L') on both, step() returns the same status and leads to the same solution, previous solution and length; after a converged step distance() measures the same. Hence _correction() of gsAPALM answers a job the same way on any worker, and the curves of parallelSolve() do not depend on which worker got which job, in which order they answered, nor on their number.", "quantifier": "all problems, options, solver histories, start points and lengths; executions with any numbers of workers", "why_tests_cant": "a test compares a fresh solver with a few histories; members left over from an earlier step only show for particular sequences of steps, and which worker gets which job is decided by timing", "anchors": ["src/gsALMSolvers/gsALMBase.h:114-118", "src/gsALMSolvers/gsALMBase.h:181-198", "src/gsALMSolvers/gsALMBase.hpp:353-416", "src/gsALMSolvers/gsALMCrisfield.hpp:102-108", "src/gsALMSolvers/gsALMConsistentCrisfield.hpp:89-130", "src/gsALMSolvers/gsAPALM.hpp:1013-1165"]}
{"id": "C99", "title": "The bisection towards a singular point stays on the side of its start", "statement": "In computeSingularPoint with SingularPointComputeTolB not 0, every trial step starts at the given point or at the end of a successful trial where the tangent has as many negative pivots (or eigenvalues) as at the given point; a rejected trial halves the arc length and nothing else does; at most MaxIter-1 trials are made, and fewer only if the smallest pivot (eigenvalue) at the last point divided by the one at the given point is below the tolerance in size.", "quantifier": "every problem, method, option set with the determinant or eigenvalue indicator, starting point and solver state; every sequence of succeeding and failing trials", "why_tests_cant": "A test sees one sequence of trials; which trials fail or overshoot depends on the problem and the arc length.", "anchors": ["src/gsALMSolvers/gsALMBase.hpp:737-840 (_bisectionObjectiveFunction, _bisectionTerminationFunction, _bisectionSolve)", "src/gsALMSolvers/gsALMBase.hpp:546-615 (_computeStability)"]}
