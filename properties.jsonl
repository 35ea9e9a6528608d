{"id": "C01", "title": "Dense::setup computes P*A = L*U", "statement": "When Dense::setup returns Ok on an m x n matrix (m >= n), the overwritten matrix and the pivot vector encode a factorisation: applying the recorded row swaps to the original matrix gives exactly the product of the unit lower-trapezoidal part and the upper-triangular part.", "quantifier": "all sizes m >= n, all real matrices", "why_tests_cant": "a unit test checks a handful of 3x3/4x4 matrices; the identity has to hold for every size and every pivot sequence", "anchors": ["crates/linear/src/dense.rs: dense_get_rf, Dense::setup"]}
{"id": "C02", "title": "Dense::setup then Dense::solve solves the linear system", "statement": "If setup(A) returns Ok, then solve with any right-hand side b returns x with A*x = b, and that x is the only solution.", "quantifier": "all n >= 1, all real n x n matrices on which setup succeeds, all b", "why_tests_cant": "infinitely many matrices, sizes and right-hand sides", "anchors": ["crates/linear/src/dense.rs: dense_get_rf, dense_get_rs, Dense::solve"]}
{"id": "C03", "title": "Dense::setup fails exactly on rank-deficient matrices and names the column", "statement": "setup returns Err{col: c} iff the first c columns of A are linearly dependent and the first c-1 are independent; it returns Ok iff all columns are independent.", "quantifier": "all sizes m >= n, all real matrices", "why_tests_cant": "singularity is a property of the whole matrix space; tests only contain nonsingular examples", "anchors": ["crates/linear/src/dense.rs: dense_get_rf, Error::LUFactFail"]}
{"id": "C04", "title": "Partial pivoting: pivots are in range and multipliers are bounded by one", "statement": "On Ok, every pivot index satisfies k <= p[k] < m and every stored multiplier has absolute value at most 1.", "quantifier": "all sizes, all matrices (range claim: any scalar semantics including NaN; multiplier claim: exact arithmetic)", "why_tests_cant": "growth control is a universally quantified bound over all matrices", "anchors": ["crates/linear/src/dense.rs: dense_get_rf"]}
{"id": "C05", "title": "The dense solver never indexes out of bounds", "statement": "Factoring any m x n matrix with m >= n and back-substituting any vector never panics, whatever the scalar values.", "quantifier": "all m >= n >= 0 and all scalar values, including NaN and infinities", "why_tests_cant": "needs every size, in particular the degenerate size 0 that no test constructs", "anchors": ["crates/linear/src/dense.rs: dense_get_rf, dense_get_rs"]}
{"id": "C06", "title": "Newton success means the convergence test accepted the final update", "statement": "If Newton::solve returns Ok, the returned y is the initial guess plus the sum of the updates of the last attempt, every update was produced by the problem's linear solve from minus the residual at the iterate it was added to, and the problem's convergence test answered true on the last update and on no earlier one of that attempt.", "quantifier": "all problems (arbitrary stateful sys/setup/solve/ctest callbacks), all initial guesses, all iteration limits", "why_tests_cant": "callbacks are arbitrary code; only a proof quantifies over them", "anchors": ["crates/nonlinear/src/newton.rs: Newton::solve"]}
{"id": "C07", "title": "Newton performs at most max(1, maxiters) linear solves per attempt", "statement": "A solve is a sequence of attempts each starting with a residual evaluation at the initial guess and containing at most max(1,maxiters) linear solves; the iteration index given to the convergence test is below max(1,maxiters), and get_cur_iter never exceeds max(1,maxiters).", "quantifier": "all problems, all maxiters", "why_tests_cant": "needs all callback behaviours", "anchors": ["crates/nonlinear/src/newton.rs: Newton::solve"]}
{"id": "C08", "title": "Newton counters are exact", "statement": "get_num_iters grows by exactly the number of linear-solve calls made, and get_num_conv_fails grows by one per retry with a refreshed Jacobian plus one when an error is returned, and by nothing else.", "quantifier": "all problems, all runs that return", "why_tests_cant": "accounting must be right on every path, including error paths tests never drive", "anchors": ["crates/nonlinear/src/newton.rs: Newton::solve, get_num_iters, get_num_conv_fails"]}
{"id": "C09", "title": "Newton::solve always returns", "statement": "For every problem whose callbacks return, Newton::solve returns after finitely many callback invocations.", "quantifier": "all problems and initial guesses", "why_tests_cant": "non-termination cannot be observed by a finite test run", "anchors": ["crates/nonlinear/src/newton.rs: Newton::solve 'outer loop"]}
{"id": "C10", "title": "Newton::solve reports ConvergenceRecover when it fails with a current Jacobian", "statement": "If the iteration fails to converge although the Jacobian is current, solve returns Err(ConvergenceRecover) so that the integrator can reduce the step.", "quantifier": "all problems", "why_tests_cant": "requires reasoning about every failing execution", "anchors": ["crates/nonlinear/src/traits.rs: NLSolver::solve docs", "crates/nonlinear/src/newton.rs: Newton::solve"]}
{"id": "C11", "title": "Newton Jacobian refresh protocol", "statement": "In the first attempt the setup callback runs iff the caller asked for it and then with jbad=false; every later attempt runs it exactly once with jbad=true; a retry happens only after a recoverable convergence failure with a stale Jacobian.", "quantifier": "all problems, all runs", "why_tests_cant": "protocol over all call sequences", "anchors": ["crates/nonlinear/src/newton.rs: Newton::solve"]}
{"id": "C12", "title": "Newton solves affine systems exactly", "statement": "For an affine residual whose linear-solve callback inverts its exact Jacobian, any Ok result satisfies F(y) = 0.", "quantifier": "all dimensions, all affine maps, all initial guesses, any convergence test", "why_tests_cant": "infinitely many systems", "anchors": ["crates/nonlinear/src/newton.rs: Newton::solve"]}
{"id": "C13", "title": "norm_wrms is a weighted root-mean-square norm", "statement": "norm_wrms(x,w) is non-negative, absolutely homogeneous, satisfies the triangle inequality, is zero iff every weighted component is zero, and bounds each weighted component by sqrt(n) times the norm; both implementations agree.", "quantifier": "all lengths n >= 1, all vectors, all weights", "why_tests_cant": "norm axioms are universally quantified", "anchors": ["src/norm_rms.rs: norm_wrms", "crates/nonlinear/src/norm_wrms.rs: norm_wrms"]}
{"id": "C14", "title": "The masked norm ignores exactly the masked-out components", "statement": "norm_wrms_masked equals the unmasked norm of the vector with masked-out components set to zero; it never exceeds the unmasked norm and is unaffected by the value of masked-out components.", "quantifier": "all lengths, vectors, weights, masks", "why_tests_cant": "all masks and vectors", "anchors": ["src/norm_rms.rs: norm_wrms_masked", "src/lib.rs: wrms_norm"]}
{"id": "C15", "title": "Error weights are positive reciprocals of the tolerance", "statement": "With rtol >= 0 and every atol > 0, every weight produced by ewt_set is positive and equals 1/(rtol*|y_i|+atol_i); a vector has WRMS norm <= 1 whenever every component is within its tolerance.", "quantifier": "all y, rtol, atol (scalar and vector variants)", "why_tests_cant": "all tolerances and states", "anchors": ["src/tol_control.rs: TolControlSS::ewt_set, TolControlSV::ewt_set"]}
{"id": "C16", "title": "Vanishing tolerances are detected", "statement": "If some component's tolerance rtol*|y_i|+atol_i is zero, solve reports an error instead of integrating with an infinite weight.", "quantifier": "all y and tolerances", "why_tests_cant": "depends on IEEE semantics of 1/0 and of the comparison used for the check", "anchors": ["src/impl_solve.rs: solve (ewt check)", "src/tol_control.rs: ewt_set", "src/error.rs: BadErrorWeightVector"]}
{"id": "C17", "title": "tout too close to t0 is rejected without side effects", "statement": "If |tout - t0| is zero or below twice the unit roundoff relative to the times, the first solve call returns IllegalInput and leaves the solution history, time, counters and step data unchanged, so a later call behaves as if the rejected call had not been made.", "quantifier": "all initial states and tout", "why_tests_cant": "all values of tout near t0", "anchors": ["src/impl_solve.rs: solve first-call block"]}
{"id": "C18", "title": "The initial step is towards tout and bounded", "statement": "On the first call the chosen initial step has the sign of tout - t0, is at most 0.001*|tout-t0|, keeps the weighted norm of h*y' at most 2, and respects hmax and tstop.", "quantifier": "all initial states, tout, tolerances", "why_tests_cant": "all inputs", "anchors": ["src/impl_solve.rs: solve first-call block", "src/ida_io.rs: get_actual_init_step"]}
{"id": "C19", "title": "A solve call that failed before completing any step can be repeated", "statement": "If the first solve call fails without completing a step, calling solve again starts from the same initial conditions as the first call.", "quantifier": "all problems and failure points", "why_tests_cant": "needs the failure history of the call, which tests never produce", "anchors": ["src/impl_solve.rs: solve first-call block (phi[1] *= hh)"]}
{"id": "C20", "title": "Method coefficients follow from the step history", "statement": "At every attempt, psi are the sums of the most recent step sizes, alpha_i = h/psi_i, gamma_i = sum of 1/psi_j, sigma_i = i! * h^i / (psi_1..psi_i), beta_i are the ratios of successive psi products, and the leading coefficient is cj = (1 + 1/2 + ... + 1/k)/h, no matter how step sizes and orders changed before.", "quantifier": "all histories of accepted and rejected steps, all orders 1..5", "why_tests_cant": "the update is incremental and skipped when the step size is constant; correctness is an invariant over histories", "anchors": ["src/lib.rs: set_coeffs"]}
{"id": "C21", "title": "A rejected attempt is undone exactly", "statement": "After a failed attempt the internal time, the divided differences and the step history used by the next attempt are exactly those from before the attempt.", "quantifier": "all states satisfying the history invariant, all orders, in exact arithmetic", "why_tests_cant": "rollback must hold at every failure point of every history", "anchors": ["src/lib.rs: set_coeffs, restore"]}
{"id": "C22", "title": "The predictor extrapolates the interpolating polynomial", "statement": "The predicted y and y' are the value and the derivative at t_n + h of the polynomial through the last k+1 accepted solution values.", "quantifier": "all histories, all orders, all step sizes", "why_tests_cant": "invariant over variable-step variable-order histories", "anchors": ["src/lib.rs: set_coeffs, predict"]}
{"id": "C23", "title": "Dense output passes through the accepted solution", "statement": "After any sequence of accepted and rejected steps, the polynomial evaluated by get_solution has degree at most the last order used and takes the accepted values at the last kused+1 step times (in particular it is continuous across step boundaries).", "quantifier": "all histories of accepted/rejected steps with arbitrary step-size and order changes", "why_tests_cant": "induction over unbounded histories", "anchors": ["src/lib.rs: get_solution, set_coeffs, predict, restore", "src/impl_complete_step.rs: complete_step"]}
{"id": "C24", "title": "get_solution returns a consistent pair (y, y')", "statement": "For every legal t the y' returned by get_solution is exactly the derivative with respect to t of the y it returns.", "quantifier": "all states, all t, orders 1..5", "why_tests_cant": "derivative identity over a continuum", "anchors": ["src/lib.rs: get_solution"]}
{"id": "C25", "title": "get_solution(tn) returns the solution accepted at tn", "statement": "At t = tn, get_solution returns exactly the y vector accepted by the last step.", "quantifier": "all states after a step", "why_tests_cant": "all states", "anchors": ["src/lib.rs: get_solution", "src/impl_complete_step.rs: complete_step"]}
{"id": "C26", "title": "get_solution rejects times outside the last step", "statement": "get_solution returns BadTimeValue, leaving the outputs untouched, iff t is not within the interval of the last step taken (up to roundoff fuzz).", "quantifier": "all states and t", "why_tests_cant": "continuum of t on both sides", "anchors": ["src/lib.rs: get_solution"]}
{"id": "C27", "title": "At t = tn the documented first-order formula holds", "statement": "For t = tn, get_solution gives yret = phi[0] and ypret = phi[1]/psi[0] as documented.", "quantifier": "all states", "why_tests_cant": "documentation claim over all orders", "anchors": ["src/lib.rs: get_solution docs"]}
{"id": "C28", "title": "get_dky agrees with the interpolating polynomial's derivatives", "statement": "For 0 <= k <= kused, get_dky(t,k) returns the k-th derivative at t of the polynomial evaluated by get_solution.", "quantifier": "all states, orders 1..5, t, k", "why_tests_cant": "derivative identities for every order and k", "anchors": ["src/lib.rs: get_dky"]}
{"id": "C29", "title": "get_dky never panics for legal arguments", "statement": "For every legal t and every 0 <= k <= kused, get_dky returns without panicking.", "quantifier": "all reachable orders and k", "why_tests_cant": "index arithmetic over all (k, kused)", "anchors": ["src/lib.rs: get_dky"]}
{"id": "C30", "title": "get_dky rejects derivative orders above the last order used", "statement": "k > kused gives BadK and leaves dky unchanged.", "quantifier": "all k and states", "why_tests_cant": "all k", "anchors": ["src/lib.rs: get_dky"]}
{"id": "C31", "title": "Order and index safety across all API histories", "statement": "Through every sequence of solve/get_solution calls the current order stays within 1..5 while stepping, the last order used within 0..5, and no coefficient array is indexed out of bounds.", "quantifier": "all API call sequences, all problems, all nonlinear solvers, all scalar semantics (NaN included)", "why_tests_cant": "unbounded histories; index safety on every path", "anchors": ["src/lib.rs: step, set_coeffs, test_error", "src/impl_complete_step.rs: complete_step"]}
{"id": "C32", "title": "Order changes by at most one per accepted step", "statement": "The order for the next step differs from the order just used by at most one; it is never raised directly after having been raised (outside the start-up phase), nor unless kused+1 steps were taken at constant size.", "quantifier": "all states and error estimates", "why_tests_cant": "all histories", "anchors": ["src/impl_complete_step.rs: complete_step"]}
{"id": "C33", "title": "Every accepted step passes the local error test", "statement": "A step is committed only if the nonlinear solver succeeded and ck*||ee||_WRMS <= 1 for the correction ee it commits.", "quantifier": "all problems, histories, scalar semantics (NaN included)", "why_tests_cant": "safety property over all executions", "anchors": ["src/lib.rs: step, test_error"]}
{"id": "C34", "title": "Retries shrink the step and keep its direction", "statement": "After each error-test failure the next attempt uses |h| multiplied by a factor in [1/4, 9/10] with the same sign, and the order does not increase; from the third failure on the order is 1.", "quantifier": "all states and error estimates", "why_tests_cant": "all failure sequences", "anchors": ["src/lib.rs: handle_n_flag"]}
{"id": "C35", "title": "An internal step always terminates, with at most ten error-test failures", "statement": "The attempt loop of one internal step ends after at most 10 error test failures (and at most 10 convergence failures), whatever the problem and the numeric values.", "quantifier": "all problems, nonlinear solvers that return, scalar semantics (NaN included)", "why_tests_cant": "termination over all executions", "anchors": ["src/lib.rs: step, handle_n_flag"]}
{"id": "C36", "title": "Step-size change after an accepted step is bounded", "statement": "After an accepted step the next step is exactly 1x, or 2x (capped by hmax), or between 0.5x and 0.9x the step just used, with the same sign.", "quantifier": "all states and error estimates", "why_tests_cant": "all estimates", "anchors": ["src/impl_complete_step.rs: complete_step"]}
{"id": "C37", "title": "The maximum step size is respected", "statement": "With inverse maximum step hmax_inv, no attempted step has |h|*hmax_inv > 1.", "quantifier": "all histories", "why_tests_cant": "invariant over histories", "anchors": ["src/impl_solve.rs: solve", "src/impl_complete_step.rs: complete_step", "src/lib.rs: handle_n_flag"]}
{"id": "C38", "title": "A failed first attempt keeps the initial condition", "statement": "When the very first step has to be retried with a smaller step, the retry starts from the same initial y0 and from h_new*y0'.", "quantifier": "all initial states and failure factors", "why_tests_cant": "needs a failing first step; tests never drive it", "anchors": ["src/lib.rs: reset, step"]}
{"id": "C39", "title": "Nonlinear convergence failures are retried with a smaller step", "statement": "When the nonlinear solver reports a recoverable convergence failure, the step is retried with a quarter of the step size, up to maxncf times, before an error is reported.", "quantifier": "all problems and states", "why_tests_cant": "error-path behaviour over all failures", "anchors": ["src/lib.rs: handle_n_flag, nonlinear_solve", "src/ida_nls.rs: ctest"]}
{"id": "C40", "title": "The corrector result is predictor plus correction", "statement": "After the nonlinear solve y = y_pred + ee and y' = y'_pred + cj*ee, and on success the solution vector stored in the history is that y.", "quantifier": "all states, all nonlinear solvers", "why_tests_cant": "all states", "anchors": ["src/lib.rs: nonlinear_solve", "src/ida_nls.rs: sys", "src/impl_complete_step.rs: complete_step"]}
{"id": "C41", "title": "Constant steps give the classical BDF formula", "statement": "If the last k+1 steps (including the current one) have the same size, the y' passed to the residual together with y is the derivative at t_{n+1} of the polynomial interpolating y at t_{n+1}, t_n, ..., t_{n+1-k}.", "quantifier": "all orders 1..5, all step sizes, all histories with constant step", "why_tests_cant": "polynomial identity for every order", "anchors": ["src/lib.rs: set_coeffs, predict, nonlinear_solve"]}
{"id": "C42", "title": "Jacobian update policy", "statement": "The nonlinear solver is asked to refresh the Jacobian iff no step has been completed yet or cj changed by a factor outside [3/5, 5/3] since the last refresh.", "quantifier": "all states", "why_tests_cant": "all states", "anchors": ["src/lib.rs: nonlinear_solve"]}
{"id": "C43", "title": "The Jacobian callback receives the current time", "statement": "Every call of the user's jac gets the same t as the residual evaluations of the same nonlinear solve.", "quantifier": "all problems and calls", "why_tests_cant": "needs a trace property over non-autonomous problems; the samples are autonomous", "anchors": ["src/ida_ls.rs: setup"]}
{"id": "C44", "title": "A singular iteration matrix is reported, not a panic", "statement": "If the linear solver cannot factor the iteration matrix, solve reports an error (or retries) rather than panicking.", "quantifier": "all problems", "why_tests_cant": "needs a singular Jacobian at some point of the run", "anchors": ["src/ida_ls.rs: setup (unwrap)"]}
{"id": "C45", "title": "Normal mode returns the solution at tout", "statement": "If solve(tout, Normal) returns Success then tret = tout, and either tout equals the previously returned time (outputs unchanged), or the solver has reached or passed tout in the direction of integration and the outputs are the interpolant at tout.", "quantifier": "all states, problems, tout", "why_tests_cant": "all executions", "anchors": ["src/impl_solve.rs: solve", "src/impl_stop_test.rs: stop_test1, stop_test2"]}
{"id": "C46", "title": "OneStep mode takes exactly one internal step or returns the pending one", "statement": "solve(_, OneStep) returning Success took exactly one internal step (zero if a previously computed step had not been returned yet), and tret equals the internal time.", "quantifier": "all states and problems", "why_tests_cant": "all executions", "anchors": ["src/impl_solve.rs: solve", "src/impl_stop_test.rs"]}
{"id": "C47", "title": "At most mxstep internal steps per call", "statement": "A solve call completes at most mxstep internal steps, and when it stops for that reason it returns an error with tret equal to the internal time; a solve call always returns if nonlinear solves and root searches return.", "quantifier": "all problems, states; all scalar semantics", "why_tests_cant": "termination and counting over all executions", "anchors": ["src/impl_solve.rs: solve loop"]}
{"id": "C48", "title": "Internal time moves strictly in the direction of integration", "statement": "Each accepted step increases the internal time by exactly the step used, a non-zero number with the sign of the first step; the internal time never moves backwards and failed attempts leave it unchanged.", "quantifier": "all histories, exact arithmetic", "why_tests_cant": "monotonicity over unbounded histories", "anchors": ["src/lib.rs: step, restore", "src/impl_solve.rs: solve"]}
{"id": "C49", "title": "The integrator never steps past tstop", "statement": "With a stop time set, the internal time never passes tstop, and when it is reached solve returns TStop with tret = tstop and solution interpolated there.", "quantifier": "all histories with a stop time, exact arithmetic", "why_tests_cant": "invariant over histories", "anchors": ["src/impl_solve.rs: solve", "src/impl_stop_test.rs", "src/lib.rs: step"]}
{"id": "C50", "title": "Reaching tstop consumes the stop time", "statement": "After a TStop return the stop time is cleared so that a later call continues past it.", "quantifier": "all states, both modes", "why_tests_cant": "all states and modes", "anchors": ["src/impl_stop_test.rs: stop_test1 (OneStep)"]}
{"id": "C51", "title": "Asking again for the same output time is idempotent", "statement": "After Normal-mode Success at tout (no roots), calling solve(tout, Normal) again returns Success at tout without taking a step or changing the solution.", "quantifier": "all states", "why_tests_cant": "all states", "anchors": ["src/impl_stop_test.rs: stop_test1"]}
{"id": "C52", "title": "An output time before the last step is rejected without advancing", "statement": "In Normal mode, if tout lies before the last step (beyond roundoff), solve returns BadTimeValue and takes no step and leaves history, time and outputs unchanged.", "quantifier": "all states and tout", "why_tests_cant": "all states", "anchors": ["src/impl_stop_test.rs: stop_test1", "src/lib.rs: get_solution"]}
{"id": "C53", "title": "Statistics counters are exact", "statement": "get_num_steps equals the number of committed steps, get_num_res_evals the number of residual evaluations, get_num_jac_evals = get_num_lin_solv_setups the number of Jacobian evaluations, get_num_err_test_fails the number of failed error tests, all over the whole life of the object; all are monotone.", "quantifier": "all API histories and problems", "why_tests_cant": "accounting on every path of every history", "anchors": ["src/ida_io.rs", "src/ida_nls.rs: sys, setup", "src/ida_ls.rs: setup", "src/lib.rs: handle_n_flag"]}
{"id": "C54", "title": "Too-much-accuracy detection", "statement": "A step is attempted only if eps*||y||_WRMS <= 1; otherwise solve returns TooMuchAccuracy, the suggested factor is 10*eps*||y||, and no step is taken.", "quantifier": "all states", "why_tests_cant": "all states", "anchors": ["src/impl_solve.rs: solve loop", "src/ida_io.rs: get_tol_scale_factor"]}
{"id": "C55", "title": "A reported root is bracketed to within the tolerance", "statement": "When rootfinding reports a root at tret, tret lies in the searched interval (tlo, thi], and there is a point within ttol before it such that every flagged component either vanishes at tret or changes sign between the two points; at least one component is flagged; if g is continuous along the interpolant, a true zero lies within ttol of tret.", "quantifier": "all root functions, interpolants and intervals, exact arithmetic", "why_tests_cant": "continuum of functions", "anchors": ["src/impl_r_check.rs: root_find, r_check3"]}
{"id": "C56", "title": "The root search terminates", "statement": "The Illinois iteration stops after a number of root evaluations bounded by the interval length over the tolerance.", "quantifier": "all root functions, exact arithmetic", "why_tests_cant": "termination for every function; cannot be observed by tests", "anchors": ["src/impl_r_check.rs: root_find"]}
{"id": "C57", "title": "No sign change is missed between the interval ends", "statement": "If rootfinding reports no root in an interval, then no active component vanishes at the right end or has opposite signs at the two ends.", "quantifier": "all root functions and intervals", "why_tests_cant": "all functions", "anchors": ["src/impl_r_check.rs: root_find"]}
{"id": "C58", "title": "The root search terminates for every f64-valued root function", "statement": "root_find stops also when the root function returns NaN.", "quantifier": "all f64-valued root functions", "why_tests_cant": "depends on IEEE comparison semantics and non-termination", "anchors": ["src/impl_r_check.rs: root_find"]}
{"id": "C59", "title": "Roots in the first step are detected", "statement": "A component that is non-zero at t0 and changes sign during the first internal step is reported as a root.", "quantifier": "all root functions", "why_tests_cant": "depends on initial activation flags", "anchors": ["src/lib.rs: new (ida_gactive)", "src/impl_r_check.rs: r_check1, root_find"]}
{"id": "C60", "title": "get_root_info gives the crossing direction", "statement": "For a component found to have a root, +1 means the component is increasing through zero and -1 decreasing.", "quantifier": "all root functions", "why_tests_cant": "sign convention over all crossings", "anchors": ["src/impl_r_check.rs: root_find", "src/ida_io.rs: get_root_info"]}
{"id": "C61", "title": "Re-activation and close-root handling at the last root", "statement": "After a root return, the next call re-evaluates g at the root; components that are zero there and still zero slightly later give CloseRoots, components that became zero only slightly later are reported as a root, and otherwise glo is non-zero for every active component that had been zero.", "quantifier": "all states", "why_tests_cant": "all combinations of zero patterns", "anchors": ["src/impl_r_check.rs: r_check2"]}
{"id": "C62", "title": "get_num_g_evals counts root-function calls", "statement": "The counter equals the number of calls of the user's root function since the start of the integration.", "quantifier": "all API histories", "why_tests_cant": "accounting on every path", "anchors": ["src/impl_r_check.rs", "src/ida_io.rs: get_num_g_evals"]}
{"id": "C63", "title": "Roberts sample: jac is the exact iteration matrix", "statement": "The Jacobian callback of the Roberts problem is dF/dy + cj*dF/dy' of its residual.", "quantifier": "all y, y', cj, all rate values", "why_tests_cant": "derivative identity over a continuum", "anchors": ["src/sample_problems/roberts.rs: res, jac"]}
{"id": "C64", "title": "Slider-crank sample: velocity constraints are derivatives of position constraints", "statement": "Residual components 8 and 9 are the time derivatives of components 6 and 7 along any motion, the multiplier terms are the transposed constraint Jacobian, and the spring-damper force uses the true rate of change of the spring length.", "quantifier": "all smooth motions and parameters", "why_tests_cant": "derivative identity over all motions", "anchors": ["src/sample_problems/slider_crank.rs: res, force"]}
{"id": "C65", "title": "Poor-convergence warnings are issued", "statement": "If more than 90% of the steps since the start of a solve call had nonlinear convergence failures, the performance monitor warns (at most ten times).", "quantifier": "all counter values reachable", "why_tests_cant": "requires following counters through all updates", "anchors": ["src/ida_ls.rs: ls_perf", "src/lib.rs: IdaCounters"]}
{"id": "C66", "title": "The linear-solve correction is scaled for a changed leading coefficient", "statement": "The Newton update is the solution of the factored system scaled by 2/(1+cjratio) (unscaled when cjratio = 1), and for a scalar-shift model problem this makes the iteration error factor |(cjratio-1)/(cjratio+1)| at the extremes.", "quantifier": "all right-hand sides and ratios", "why_tests_cant": "all values", "anchors": ["src/ida_ls.rs: solve"]}
{"id": "C67", "title": "Convergence test of the nonlinear iteration", "statement": "The integrator's convergence test accepts only if the first update is tiny or ss*||del|| <= tol with ss from the current or saved rate estimate, and declares divergence iff the estimated rate exceeds 0.9.", "quantifier": "all iterates and states", "why_tests_cant": "all values", "anchors": ["src/ida_nls.rs: ctest"]}
{"id": "C68", "title": "A stop time or direction-limited root search is unavailable through the public API", "statement": "The documented set_stop_time does not exist: through every sequence of public calls solve never returns TStop.", "quantifier": "all API histories", "why_tests_cant": "negative reachability over unbounded histories", "anchors": ["src/lib.rs: new", "src/impl_solve.rs: solve docs"]}
{"id": "C69", "title": "After an unrecoverable step failure the last accepted solution is still available", "statement": "When solve fails inside a step after at least one accepted step, tret is the last internal time and the outputs are the interpolant there; get_solution continues to give the same dense output for the last accepted step.", "quantifier": "all states and failures", "why_tests_cant": "crash-point property over all failing attempts", "anchors": ["src/impl_solve.rs: solve map_err branch", "src/lib.rs: restore, get_solution"]}
{"id": "C70", "title": "Newton with the dense solver solves every nonsingular linear system", "statement": "For the problem A*y = b with a set-up callback that factors A with Dense and a solve callback that back-substitutes, Newton::solve with set-up requested and maxiters >= 2 returns Ok after at most two linear solves, with the unique solution of A*y = b.", "quantifier": "all dimensions >= 1, all nonsingular real matrices, all right-hand sides, initial guesses, weights and tolerances >= 0", "why_tests_cant": "infinitely many systems; composition of two components", "anchors": ["crates/nonlinear/src/newton.rs: Newton::solve", "crates/linear/src/dense.rs: Dense::setup, Dense::solve"]}
{"id": "C71", "title": "The local error estimates are scaled divided differences of the solution", "statement": "In every attempt of a step of order k the error estimates of test_error are E_j/(j+1), where E_j is the weighted norm of h^(j+1) times the (j+1)-st derivative of the polynomial through the new solution and the latest j+1 earlier points, for j = k, k-1 (k-2 enters the order rule); the order considered after the test is k-1 exactly when E_1 <= E_2/2 (k = 2) or E_(k-1), E_(k-2) <= E_k (k >= 3).", "quantifier": "all problems, initial vectors, configurations, call sequences, states in which an attempt begins, and corrections returned by the nonlinear solver (exact arithmetic)", "why_tests_cant": "internal quantities over unbounded step-size and order histories; a wrong estimate still produces a plausible run", "anchors": ["src/lib.rs: test_error (967-1039)", "src/lib.rs: set_coeffs (722-783)"]}
{"id": "C72", "title": "Order and step size of a retry after a failed error test", "statement": "After the first failed error test of a step the order is the reduced one and the step size is multiplied by 0.9*(2*E/(k'+1)+0.0001)^(-1/(k'+1)) limited to [1/4, 9/10]; after the second failure the order is the reduced one and the factor 1/4; after later failures the order is 1 and the factor 1/4.", "quantifier": "all states in which an attempt begins in some call, all numbers of earlier failures, all corrections (exact arithmetic)", "why_tests_cant": "needs rejected steps at every order and history; tests reach a handful", "anchors": ["src/lib.rs: handle_n_flag (1120-1244)", "src/lib.rs: restore, reset"]}
{"id": "C73", "title": "Order and step size after an accepted step", "statement": "After an accepted step of order k and size h: in the start-up phase (no failure and no order reduction so far, order below the maximum) the first step keeps order and size and later steps raise the order by one and double the step; otherwise the order is lowered, kept or raised by comparing E_(k-1), E_k, E_(k+1) as IDA prescribes and the step is doubled, kept or multiplied by the ratio limited to [1/2, 9/10], the doubled step being limited by the maximum step.", "quantifier": "all problems, initial vectors, configurations, call sequences, steps and corrections (exact arithmetic)", "why_tests_cant": "the decision depends on the whole accepted history; tests see few branches", "anchors": ["src/impl_complete_step.rs: complete_step", "src/lib.rs: test_error"]}
{"id": "C74", "title": "Linear constraints and conserved quantities are kept", "statement": "If a combination of the model's equations is a linear algebraic constraint c.y = d or a conservation law c.y' = 0 (the Jacobian agreeing), and the initial values satisfy c.y = d and c.y' = 0, then every argument the integrator passes to the residual and to the Jacobian, every accepted value and every dense output satisfies c.y = d and c.y' = 0.", "quantifier": "all problems with such a combination, all linear solvers that solve what they factor (so the dense one), all initial vectors on the constraint, configurations and call sequences (exact arithmetic)", "why_tests_cant": "a test sees one system and cannot tell drift from rounding; the property needs the whole chain predictor, Newton, matrix solve, history update", "anchors": ["src/lib.rs: predict, set_coeffs, nonlinear_solve, restore, handle_n_flag", "src/impl_complete_step.rs", "src/ida_ls.rs: solve", "sample_problems/roberts.rs"]}
{"id": "C75", "title": "Solutions that are linear in time are integrated exactly", "statement": "If y(t) = a + b t solves F(t, y, y') = 0 for all t and the object is created with y(t0), y'(t0) = b, then every accepted step equals y(t), every argument at which the residual is evaluated lies on the solution with derivative b, no error test and no nonlinear solve fails, and the dense output, the vectors of a successful Normal call and those of a stop-time return are y(t) and b exactly, at every order and after every step size change.", "quantifier": "all problems with such a solution (any size, any residual and Jacobian function), all linear solvers that solve what they factor for a zero right-hand side (so the dense one), all weights, configurations and call sequences whose first residual evaluation gets the given derivative (a first call turned down after its first-call block rescales it, C19); exact arithmetic", "why_tests_cant": "a test runs one linear problem and cannot tell rounding from a wrong coefficient; the claim is about all step size and order histories", "anchors": ["src/lib.rs: set_coeffs, predict, nonlinear_solve, test_error, get_solution", "src/impl_complete_step.rs", "nonlinear/src/newton.rs"]}
{"id": "C76", "title": "A call on a problem with a linear solution returns and no step of it fails", "statement": "Under the assumptions of C75, if the linear solver can set up the iteration matrix along the solution for every nonzero leading coefficient, a call of solve on a fresh object or on one whose first residual evaluation got the given derivative returns, does not report a failed step (error test, nonlinear solve), and leaves the object in the same situation.", "quantifier": "all such problems, solvers, weights, configurations with a step limit, output times, tasks; exact arithmetic", "why_tests_cant": "termination and absence of failures over all problems and histories", "anchors": ["src/impl_solve.rs: solve", "src/lib.rs: step", "nonlinear/src/newton.rs: solve", "linear/src/dense.rs: setup, solve"]}
{"id": "C77", "title": "A problem with a solution linear in time is integrated to the end", "statement": "Under the assumptions of C75 and C76, without a stop time, largest step size and root functions, and with a relative tolerance of at least the machine epsilon: the calls for any sequence of output times that move on in one direction all return success at the requested time with exactly y(t) and y' = b, no step limit or accuracy error occurs (the farthest output time being within 2^(mxstep-1) first steps). Every accepted step is twice as long as the one before (limited to the largest step size; the second step is as long as the first when the order may be raised), the third step has order 2 and all others order 1.", "quantifier": "all such problems, solvers, tolerances, initial times, output times and their number; exact arithmetic", "why_tests_cant": "a test runs one problem with one list of output times; the claim includes liveness (the call succeeds) for all of them", "anchors": ["src/impl_solve.rs: solve", "src/impl_complete_step.rs: complete_step", "src/impl_stop_test.rs", "src/lib.rs: step, get_solution"]}
{"id": "C78", "title": "The integrator does not depend on the units", "statement": "Let a problem be rewritten in other units: time multiplied by a nonzero factor (negative: time reversed), each component of y by its own nonzero factor, the equations replaced by as many independent linear combinations of them (other factors, another order, sums and differences), with the tolerances, initial values, settings (initial step, largest step, initial time, stop time) and the arguments of all calls converted accordingly. Then the object for the rewritten problem panics or fails to return exactly when the original does, gives the same results with times converted, performs the same numbers of steps, evaluations, iterations and failures at the same orders with converted step sizes, reports the converted y, y', weights and root information, gives the converted derivatives of all orders, and calls the user's functions in the same order at the converted arguments. Until a step is completed only solve is called, and calls after one that completed no step are covered only if that one was rejected for its arguments.", "quantifier": "all problems, units, settings, tolerances, lists of calls; dense solver for all units, any linear solver for a change of the time unit; exact arithmetic", "why_tests_cant": "an equivariance between two runs of arbitrary length for every problem and every unit; a constant with a hidden dimension anywhere in the code breaks it", "anchors": ["src/lib.rs: new, set_coeffs, predict, nonlinear_solve, test_error, restore, step, get_solution, get_dky, r_check1, r_check2, r_check3, root_find", "src/impl_solve.rs: solve", "src/impl_stop_test.rs", "src/impl_complete_step.rs", "src/ida_nls.rs", "src/ida_ls.rs", "src/norm_rms.rs", "src/tol_control.rs", "nonlinear/src/newton.rs", "linear/src/dense.rs"]}
{"id": "C79", "title": "The Jacobian is evaluated where the residual was", "statement": "Every call of the user's jac directly follows a call of the user's res and gets the same y and y' (the time is another matter: C43).", "quantifier": "all problems, linear solvers, settings and histories of calls; any scalar", "why_tests_cant": "quantifies over every Jacobian call of every history", "anchors": ["src/ida_nls.rs: sys, setup", "nonlinear/src/newton.rs: solve", "src/ida_ls.rs: setup"]}
{"id": "C80", "title": "Linear equations of the system are satisfied at accepted steps", "statement": "Let a combination of the equations of the system be linear, a.y + b.y' + f(t) = 0, and the supplied Jacobian agree with it. At every accepted step the ratio rho of the attempt's leading coefficient to the one the matrix was set up with lies in [3/5, 5/3], and is 1 in the first step. If rho is 1 the accepted y, with the derivative the corrector attaches to it, satisfies the equation exactly. Otherwise an equation without derivatives (or with derivatives only) is satisfied up to (rho-1)/(rho+1) (or its negative), at most a quarter, of its residual at the latest residual evaluation.", "quantifier": "all problems with such an equation, settings, tolerances, sequences of calls; any linear solver that solves what it factored; exact arithmetic", "why_tests_cant": "a statement about every accepted step of every run; the effect of the factor 2/(1+cjratio) on a stale matrix is not visible in the final values of a few runs", "anchors": ["src/ida_nls.rs: sys, setup, solve, ctest", "src/ida_ls.rs: setup, solve (the factor 2/(1+cjratio))", "src/lib.rs: nonlinear_solve", "nonlinear/src/newton.rs: solve", "linear/src/dense.rs"]}
{"id": "C81", "title": "The dense solver is backward stable", "statement": "In arithmetic where every operation has a relative error of at most u: the computed solution of A x = b solves (A + dA) x = b exactly, with |dA| <= gamma_3n |L||U| row by row (gamma_k = k u / (1 - k u), rows in pivot order), and hence |dA| <= gamma_3n n q^2 g^(n-1) max|A| with q = 1/(1-u) and g = q (1 + q^3) (about 2), the classical growth bound of partial pivoting. The computed factors satisfy |P A - L U| <= gamma_(n+1) |L||U|, multipliers are at most q^2, pivots are not zero. The matrix is refused at column c only if a change of the same size makes its first c columns dependent; a matrix that stays regular under such changes is always accepted.", "quantifier": "all sizes, matrices, right-hand sides, every rounding function with relative error u (f64 rounding without overflow and underflow included), 3 n u < 1", "why_tests_cant": "a bound over all matrices and all rounding errors; the tests compare a few small systems in f64 with known solutions", "anchors": ["crates/linear/src/dense.rs: dense_get_rf, dense_get_rs, Dense::setup, Dense::solve"]}
{"id": "C82", "title": "Norms, weights and the error test under rounding", "statement": "In arithmetic where every operation has a relative error of at most u: the computed WRMS norm (plain or masked) of n components differs from the exact one by a relative error of at most gamma_(n/2+4) (gamma_(n/2+5)), an error weight by gamma_3. A vector within the tolerances component by component has a computed norm of at most 1 + gamma_(n/2+7); a computed norm of at most 1 means that no component exceeds sqrt n (1 + gamma_(n/2+7)) times its tolerance. At every accepted step the exact norm of the correction, times the error coefficient the code used, is at most 1 + gamma_(n/2+6), and no component of the error estimate exceeds sqrt n (1 + gamma_(n/2+8)) times its tolerance.", "quantifier": "all vectors, weights, tolerances, states of the integrator with the Newton solver and any linear solver, every rounding function with relative error u", "why_tests_cant": "bounds over all vectors and all rounding errors; the tests compare single values with a tolerance", "anchors": ["src/norm_rms.rs: norm_wrms, norm_wrms_masked", "src/tol_control.rs: ewt_set", "src/lib.rs: test_error, wrms_norm"]}
{"id": "C83", "title": "Times, step sizes and the stop time in floating point arithmetic", "statement": "With every operation rounded (monotone, idempotent, relative error at most 2^-53, no overflow or underflow), initial and stop time representable: attempted step sizes are never zero, never change direction, and exceed the maximal step size by at most two roundings; the time after an accepted step is the rounded sum of the previous time and the step size and never lies behind the previous time; while the stop time is set, the residual function is never called and no step ends outside the interval between the initial time and the stop time.", "quantifier": "all problems, solvers, settings, sequences of calls; all roundings of that kind", "why_tests_cant": "whether t+h overshoots the stop time by a rounding error depends on the bits of t, h and tstop of every step of every run", "anchors": ["src/impl_solve.rs: solve", "src/impl_stop_test.rs", "src/impl_complete_step.rs", "src/lib.rs: step"]}
{"id": "C84", "title": "Where output is asked for does not change the integration", "statement": "Two objects for the same equations, initial values, tolerances and numerical settings, without stop time, make the same internal steps - the same residual and Jacobian evaluations with the same arguments, the same tries with time, size and order, the same failures, the same accepted solutions - whatever output times, call modes, step limits, interpolation requests and root functions they are used with, provided the initial step size is given or the first output time is the same: the history of the one that has made fewer steps is how the history of the other began. After the same number of begun steps, times, step sizes, orders, counters and all interpolated values and derivatives agree. Consequently (exact arithmetic, output times going forward) the solution returned at an output time is the same whatever output times were asked for before it.", "quantifier": "all scalar types (binary64 included), problems, linear solvers, nonlinear solvers that use the problem only through its methods (Newton proved), settings, initial values, pairs of sequences of calls in which no first step fails", "why_tests_cant": "a test compares a few output grids; one stray write of a root check, of an interpolation or of a stop test into the stepping state shows only for particular interleavings", "anchors": ["src/impl_solve.rs: solve", "src/impl_stop_test.rs", "src/impl_r_check.rs", "src/lib.rs: step, get_solution, get_dky"]}
{"id": "C85", "title": "Interpolated output, prediction and stored solution under rounding", "statement": "With every operation rounded (relative error at most u): the solution that get_solution returns at a time t differs from the value at t of the polynomial given by the stored history (order k) by at most ((1+u)^(5k+2) - 1) times the sum of the absolute values of its terms, the derivative from that polynomial's derivative by at most ((1+u)^(6k+1) - 1) times the corresponding sum; the prediction of a step differs from the sum of the k+1 history rows by at most ((1+u)^(k+1) - 1) times the sum of their absolute values; after a step the solution stored in the history differs from the solution the step accepted by at most 4 ((1+u)^(k+2) - 1) / (1-u) times the sum of the absolute values of the stored rows and of the correction; and the output asked for at the current time is exactly the stored solution.", "quantifier": "all problems, solvers, settings, sequences of calls, times; all roundings with relative error u (idempotent for the last part)", "why_tests_cant": "the bounds hold for every history and every rounding error; tests compare single outputs with a loose tolerance", "anchors": ["src/lib.rs: get_solution, predict", "src/impl_complete_step.rs"]}
{"id": "C86", "title": "The root search in floating point arithmetic", "statement": "With every operation of the search rounded (relative error at most 2^-53, no overflow or underflow), from every state of the object with its arrays in place, non-zero step and both ends of the searched interval no farther from zero than three times |t|+|h|: the search ends, after at most 1 + 5 |interval| / tolerance calls of the root functions; a reported root lies in the interval, the reported components are exactly the watched ones that vanish at the reported time or change sign between it and an earlier point of the interval at which the root functions were called too (or the left end), there is one, and if it does not vanish there the two points are at most the tolerance (up to six roundings) apart; if no root is reported, no watched component vanishes at the right end or changed sign.", "quantifier": "all root functions, states with those properties, roundings of that kind", "why_tests_cant": "whether a rounded secant step leaves the bracket or stalls depends on the bits of the interval ends and of the root function values in every pass", "anchors": ["src/impl_r_check.rs: r_check3, root_find"]}
{"id": "C87", "title": "Finite root functions never hang the solver", "statement": "A call of solve returns whenever the root functions have finite values: in particular a call that asks for an output time behind the current time returns an error.", "quantifier": "all problems with finite root functions, all states reached by calls, all output times", "why_tests_cant": "the search stalls only where neighbouring floating point numbers are farther apart than the root tolerance and the secant points repeat", "anchors": ["src/impl_r_check.rs: r_check3, root_find", "src/lib.rs: solve"]}
{"id": "C88", "title": "Calls that never go back return, whatever the root functions, in rounded arithmetic", "statement": "In a life in which every call asked for an output time not behind the time returned last and returned a status (success, stop time or root) or the error that the maximal number of steps was made, the next such call returns: the attempts of the steps and the root searches all end, for any root functions, provided the nonlinear solver returns and the step size is at most 10^12 times the current time in magnitude once a step has been made.", "quantifier": "all problems and root functions, all monotone roundings with relative error at most 2^-53, all lawful nonlinear solvers that return, all such lives, output times and tasks", "why_tests_cant": "whether the bracket of a root search keeps shrinking depends on where the rounded secant points fall; C87 shows a call where they repeat", "anchors": ["src/impl_r_check.rs: r_check2, r_check3, root_find", "src/impl_solve.rs: solve", "src/impl_stop_test.rs: stop_test1, stop_test2"]}
{"id": "C89", "title": "Returned times go on and are never extrapolated, in rounded arithmetic", "statement": "Without root functions and without a stop time (the public interface cannot set one): in a life in which every call asked for an output time not behind the time returned last, and returned a status or the error that the maximal number of steps was made, the time returned by the next such call is not behind the time returned before it, it is not ahead of the internal time (so the output lies inside the computed solution), and the direction of integration is that of the calls before.", "quantifier": "all problems without root functions, all monotone roundings with small relative error and without underflow, all lawful nonlinear solvers, all such lives, output times, tasks and numbers of passes", "why_tests_cant": "the stop tests compare signs of rounded products of rounded differences; that none of them ever picks the wrong side is a statement about all times and step sizes", "anchors": ["src/impl_stop_test.rs: stop_test1, stop_test2", "src/impl_solve.rs: solve", "src/lib.rs: step"]}
{"id": "C90", "title": "Root and output times come in order, in rounded arithmetic", "statement": "With root functions and without a stop time (the public interface cannot set one): in a life in which every call asked for an output time not behind the time returned last, and returned a status or the error that the maximal number of steps was made, while the step is at most 10^12 times the current time in magnitude: the time returned by the next such call, root or output, is not ahead of the internal time; if it is not a root it is not behind the time returned before it; if it is a root it is behind by at most the tolerance of the root search (100 unit roundoffs of time and step, up to six roundings); the direction of integration is that of the calls before.", "quantifier": "all problems with root functions, all monotone roundings with small relative error and without underflow, all lawful nonlinear solvers, all such lives, output times, tasks and numbers of passes", "why_tests_cant": "roots close to each other and to output times, at any distance down to the roundoff of the time, in any number of calls", "anchors": ["src/impl_r_check.rs: r_check2, r_check3, root_find", "src/impl_stop_test.rs: stop_test1, stop_test2", "src/impl_solve.rs: solve"]}
