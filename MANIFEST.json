{
 "claims": [
  {
   "property": "C01",
   "status": "proved",
   "theorems": [
    "C01_dense_lu_factorisation"
   ],
   "note": "Exact arithmetic, all sizes m >= n."
  },
  {
   "property": "C02",
   "status": "proved",
   "theorems": [
    "C02_dense_solve_solves",
    "C02_dense_solution_unique"
   ],
   "note": "Exact arithmetic, all n >= 1."
  },
  {
   "property": "C03",
   "status": "proved",
   "theorems": [
    "C03_dense_ok_iff_independent",
    "C03_dense_err_iff_dependent"
   ],
   "note": "Exact arithmetic, all sizes m >= n, both directions."
  },
  {
   "property": "C04",
   "status": "proved",
   "theorems": [
    "C04_dense_pivots_in_range",
    "C04_dense_multipliers_bounded"
   ],
   "note": "Range claim for any scalar semantics, multiplier bound in exact arithmetic."
  },
  {
   "property": "C05",
   "status": "partial",
   "theorems": [
    "C04_dense_pivots_in_range",
    "C05_dense_solve_no_panic_partial",
    "C05_dense_empty_refuted"
   ],
   "note": "Setup never panics; solve never panics for n >= 1 (any scalar); the full statement is false for n = 0 (0..(n-1) underflows), shown by the refutation."
  },
  {
   "property": "C06",
   "status": "proved",
   "theorems": [
    "C06_log_is_ghost",
    "C06_newton_ok_means_accepted"
   ],
   "note": "Any scalar, any problem with arbitrary mutable state; the call log is a ghost that does not influence the execution."
  },
  {
   "property": "C07",
   "status": "proved",
   "theorems": [
    "C07_newton_iteration_bound"
   ],
   "note": "Any scalar, any problem."
  },
  {
   "property": "C08",
   "status": "proved",
   "theorems": [
    "C08_newton_counters_exact"
   ],
   "note": "Any scalar, any problem, all returning executions."
  },
  {
   "property": "C09",
   "status": "partial",
   "theorems": [
    "C09_newton_returns_refuted",
    "C09_newton_attempt_returns_partial",
    "C09_newton_returns_partial"
   ],
   "note": "False of the code: a recoverable failure with a current Jacobian repeats for ever (newton.rs 146-153). Proved: every attempt returns; one attempt suffices if the test accepts in time and no callback fails recoverably."
  },
  {
   "property": "C10",
   "status": "partial",
   "theorems": [
    "C10_recover_never_reported_refuted"
   ],
   "note": "False of the code: no execution of any problem returns ConvergenceRecover."
  },
  {
   "property": "C11",
   "status": "partial",
   "theorems": [
    "C11_newton_refresh_refuted",
    "C11_newton_protocol_partial",
    "C11_attempt_setups_partial"
   ],
   "note": "The claim about later attempts is false when the failure happened with a current Jacobian; the exact protocol is proved."
  },
  {
   "property": "C12",
   "status": "proved",
   "theorems": [
    "C12_newton_affine_exact"
   ],
   "note": "Exact arithmetic, any state type, any convergence test."
  },
  {
   "property": "C13",
   "status": "proved",
   "theorems": [
    "C13_norm_wrms_formula",
    "C13_norm_wrms_is_a_norm",
    "C13_norm_implementations_agree"
   ],
   "note": "Exact arithmetic; agreement of the implementations for any scalar."
  },
  {
   "property": "C14",
   "status": "proved",
   "theorems": [
    "C14_masked_norm",
    "C14_wrms_norm_selects"
   ],
   "note": "Exact arithmetic."
  },
  {
   "property": "C15",
   "status": "proved",
   "theorems": [
    "C15_ewt_scalar_tolerance",
    "C15_ewt_vector_tolerance",
    "C15_within_scalar_tolerance",
    "C15_within_vector_tolerance"
   ],
   "note": "Exact arithmetic."
  },
  {
   "property": "C16",
   "status": "partial",
   "theorems": [
    "C16_zero_tolerance_never_steps",
    "C16_refuted",
    "C54_steps_checked"
   ],
   "note": "False of the code and refuted: 1/0 is infinite, the test only rejects weights <= 0 and is not made before the first step. C16_refuted: the first solve call on a problem with a zero tolerance never returns (for every fuel). What holds (binary64, any problem size and fuel): no step is ever completed with a zero tolerance, so no solution is produced from an infinite weight; and over any scalar every attempt after a completed step uses the weights of the current solution, none of which is <= 0."
  },
  {
   "property": "C17",
   "status": "proved",
   "theorems": [
    "C17_too_close"
   ],
   "note": "Any scalar. An output time closer than twice the unit roundoff (or equal) is refused on a call before the first completed step, for every reachable state, both modes; nothing a later call depends on changes, stated as equality of every later solve call."
  },
  {
   "property": "C18",
   "status": "proved",
   "theorems": [
    "C18_first_step",
    "C18_first_step_size"
   ],
   "note": "First attempt of the first call on a new object, exact arithmetic; C18_first_step_size gives the exact size, and when the call is refused, without a stop time."
  },
  {
   "property": "C19",
   "status": "partial",
   "theorems": [
    "C19_rejected_call_partial",
    "C19_accuracy_scales",
    "C19_refuted",
    "C19_accuracy_refuted"
   ],
   "note": "False of the code and refuted: after a first call that fails in the error test the next call starts from a scaled y(0) (C19_refuted), after TooMuchAccuracy from a scaled y'(0) (C19_accuracy_refuted; C19_accuracy_scales gives the factor for every problem). Proved for calls rejected because of their arguments: every later call behaves as if the rejected one had not been made."
  },
  {
   "property": "C20",
   "status": "proved",
   "theorems": [
    "C20_coefficients",
    "C20_coefficients_newton",
    "newton_reports_no_failure",
    "C20_coefficients_partial",
    "C20_after_failures_refuted"
   ],
   "note": "Over the reals, for every attempt of every step of a life, for any nonlinear solver that never reports a failure (hypothesis never_fails, proved for the crate's Newton solver in C20_coefficients_newton). C20_coefficients_partial: any lawful solver as long as no failure has been reported. C20_after_failures_refuted: false in general for other solvers once a reported failure ended a call."
  },
  {
   "property": "C21",
   "status": "partial",
   "theorems": [
    "C21_rejected_attempt_undone_partial"
   ],
   "note": "Time, history rows and psi[0..kk) exactly as before the attempt, over the reals, once a step has been accepted. psi[kk] itself is not restored by the code (it is recomputed by the next attempt). Before the first accepted step the statement is false: the whole history including the initial value is scaled (see C38)."
  },
  {
   "property": "C22",
   "status": "partial",
   "theorems": [
    "C22_predictor_partial",
    "C22_residual_calls_partial"
   ],
   "note": "Every prediction is value and derivative of the interpolating polynomial of degree at most k through the last accepted points, over the reals; residual calls of a whole life follow. While no nonlinear failure was reported. In the very first step after a failed error test the interpolated initial value is not the given one (C38), which interpolates accounts for."
  },
  {
   "property": "C23",
   "status": "partial",
   "theorems": [
    "C23_dense_output_partial",
    "C23_refuted"
   ],
   "note": "Over the reals. Missing: calls of get_solution after a failed solve which lowered the order below the last used one, where the statement is false: C23_refuted is an execution with the crate's solvers."
  },
  {
   "property": "C24",
   "status": "proved",
   "theorems": [
    "C24_consistent_pair"
   ],
   "note": "Over the reals, every life, every time accepted by get_solution, one polynomial for all times."
  },
  {
   "property": "C25",
   "status": "proved",
   "theorems": [
    "C25_at_tn"
   ],
   "note": "Over the reals, every life with an accepted step, any lawful nonlinear solver."
  },
  {
   "property": "C26",
   "status": "partial",
   "theorems": [
    "C26_window_partial",
    "C26_rejected_untouched",
    "C26_late_accepted",
    "C26_refuted"
   ],
   "note": "Over the reals: rejected exactly when t lies before the start of the last step by more than the roundoff allowance, otherwise Ok (C26_window_partial); a rejection leaves the state unchanged and is BadTimeValue (any scalar). The other side is false: no time after tn is ever rejected (C26_late_accepted), C26_refuted shows an execution accepting tn + 1000000."
  },
  {
   "property": "C27",
   "status": "partial",
   "theorems": [
    "C27_first_order_partial",
    "C27_formula",
    "C27_refuted"
   ],
   "note": "yret = phi[0] for every state; ypret = phi[1]/psi[0] for orders up to 1. At higher orders the documented formula is false: C27_formula gives ypret as the sum of phi[j+1]/psi[j] over all rows in use, C27_refuted is an execution at order 3."
  },
  {
   "property": "C28",
   "status": "partial",
   "theorems": [
    "C28_derivatives_partial",
    "C28_truncated",
    "C28_refuted"
   ],
   "note": "Over the reals. True for k = 0, 1 and k = kused. C28_truncated: in general the k-th derivative of the polynomial through the last max(k, kused-k+1)+1 points (the inner loops stop too early), C28_refuted: an execution at order 3 whose second derivative is wrong."
  },
  {
   "property": "C29",
   "status": "partial",
   "theorems": [
    "C29_no_panic_partial",
    "C29_value_panics",
    "C29_refuted"
   ],
   "note": "Any scalar, any lawful solver, all reachable states: get_dky returns unless k = 0 at order 5, where it always panics for a legal time; C29_refuted is an execution reaching that."
  },
  {
   "property": "C30",
   "status": "proved",
   "theorems": [
    "C30_bad_k"
   ],
   "note": "Any scalar: BadK with dky unchanged if and only if k exceeds the last order used."
  },
  {
   "property": "C31",
   "status": "proved",
   "theorems": [
    "C31_orders",
    "C31_no_panic",
    "C31_newton_dense_no_panic"
   ],
   "note": "Order bounds through every life of an object, and no panic in any call but get_dky (C29), for every scalar and every nonlinear solver that does not panic itself; with the library's own solvers for Jacobians the linear solver accepts (otherwise C44, C05)."
  },
  {
   "property": "C32",
   "status": "proved",
   "theorems": [
    "C32_order_changes",
    "C32_raised_after_constant_steps",
    "C32_raised_newton",
    "C32_raised_after_constant_steps_partial"
   ],
   "note": "Order change by at most one and no raise twice in a row: any scalar. Raise only after constant steps: over the reals, for solvers that never report a failure, in particular the crate's Newton solver."
  },
  {
   "property": "C33",
   "status": "proved",
   "theorems": [
    "C33_accepted_step_passed_the_error_test"
   ],
   "note": ""
  },
  {
   "property": "C34",
   "status": "proved",
   "theorems": [
    "C34_retries_shrink"
   ],
   "note": "Exact arithmetic."
  },
  {
   "property": "C35",
   "status": "proved",
   "theorems": [
    "C35_at_most_ten_failures",
    "C35_step_returns"
   ],
   "note": "At most max(maxnef,3) error-test failures per step; the attempt loop returns."
  },
  {
   "property": "C36",
   "status": "proved",
   "theorems": [
    "C36_next_step_size"
   ],
   "note": "Exact arithmetic."
  },
  {
   "property": "C37",
   "status": "proved",
   "theorems": [
    "C37_max_step_respected"
   ],
   "note": "Exact arithmetic."
  },
  {
   "property": "C38",
   "status": "partial",
   "theorems": [
    "C38_scaled",
    "C38_refuted"
   ],
   "note": "The statement is false: reset scales the whole history including y0. C38_refuted: binary64 execution with the crate's Newton and dense solver, default settings, consistent initial values, where the first accepted value is below 0.01 for a solution that starts at 1 and grows. C38_scaled (over the reals, all problems): every attempt of the first step starts from (h_new/h)*y0, with the exact factor bounded by 0.9 to the number of failures."
  },
  {
   "property": "C39",
   "status": "partial",
   "theorems": [
    "C39_failure_ends_the_call",
    "C39_recoverable_reaction",
    "C39_refuted"
   ],
   "note": "The statement is false: the downcast in handle_n_flag never recognises a nonlinear error. C39_failure_ends_the_call (any scalar, any lawful solver): a call counts at most one nonlinear failure and then returns that error, so there is never a retry; C39_refuted: execution with maxncf 10 and a single attempt; C39_recoverable_reaction: what the (unreachable) branch for recoverable failures does."
  },
  {
   "property": "C40",
   "status": "proved",
   "theorems": [
    "C40_accepted_solution",
    "C40_residual_arguments",
    "C40_history_holds_the_solution",
    "C40_system",
    "C40_jacobian"
   ],
   "note": "C40_system, C40_jacobian: the values of the system and the matrix given to the solvers are the model's residual and Jacobian at the recorded arguments."
  },
  {
   "property": "C41",
   "status": "partial",
   "theorems": [
    "C41_constant_steps_partial",
    "C41_low_orders_partial"
   ],
   "note": "Over the reals, any order, with classical BDF1/BDF2 formulas as corollary. Excluded: the first step after a failed error test, where the code has scaled the initial value (C38)."
  },
  {
   "property": "C42",
   "status": "proved",
   "theorems": [
    "C42_refresh_policy",
    "C42_refresh_window_R"
   ],
   "note": "Trace statement for whole lives with the Newton solver, any scalar; the window over the reals."
  },
  {
   "property": "C43",
   "status": "partial",
   "theorems": [
    "C43_jac_time_partial",
    "C43_jac_time_refuted"
   ],
   "note": "The claim is false of the code: jac always gets t = 0."
  },
  {
   "property": "C44",
   "status": "partial",
   "theorems": [
    "C44_setup_error_panics",
    "C44_singular_matrix_refuted"
   ],
   "note": "Refuted: every set-up error of the linear solver is unwrapped and panics; binary64 life in which solve panics."
  },
  {
   "property": "C45",
   "status": "proved",
   "theorems": [
    "C45_outputs_at_tout",
    "C45_normal_success"
   ],
   "note": "Exact arithmetic for the full statement; C45_normal_success is the part that holds for every scalar."
  },
  {
   "property": "C46",
   "status": "proved",
   "theorems": [
    "C46_one_step"
   ],
   "note": ""
  },
  {
   "property": "C47",
   "status": "proved",
   "theorems": [
    "C47_solve_returns",
    "C47_step_limit",
    "C47_solve_returns_reals"
   ],
   "note": "C47_solve_returns: for any scalar, solve returns unless a root search does not (C58). C47_solve_returns_reals: over exact reals every call returns, root searches included."
  },
  {
   "property": "C48",
   "status": "proved",
   "theorems": [
    "C48_time_moves_forward"
   ],
   "note": "Exact arithmetic."
  },
  {
   "property": "C49",
   "status": "proved",
   "theorems": [
    "C49_never_past_tstop",
    "C49_tstop_return"
   ],
   "note": "Exact arithmetic."
  },
  {
   "property": "C50",
   "status": "partial",
   "theorems": [
    "C50_tstop_cleared_partial",
    "C50_one_step_stuck",
    "C50_refuted"
   ],
   "note": "Any scalar: in Normal mode, and whenever the call took a step, a TStop return clears the stop time and no later call reports it. False for OneStep calls that take no step: stop_test1 leaves the stop time set and every later OneStep call returns it again without a step (C50_one_step_stuck), reachable (C50_refuted, binary64 witness)."
  },
  {
   "property": "C51",
   "status": "proved",
   "theorems": [
    "C51_same_tout",
    "C51_same_tout_R"
   ],
   "note": "Any scalar when no stop time is configured (always so through the API, C68) and over the reals with a stop time; no root functions."
  },
  {
   "property": "C52",
   "status": "proved",
   "theorems": [
    "C52_before_last_step"
   ],
   "note": "Over the reals, no root functions; every reachable state after a step. Covers that the last returned time is never before the last step, so the equality test cannot answer first."
  },
  {
   "property": "C53",
   "status": "proved",
   "theorems": [
    "C53_counters_are_exact",
    "C53_counters_are_monotone"
   ],
   "note": ""
  },
  {
   "property": "C54",
   "status": "proved",
   "theorems": [
    "C54_steps_checked",
    "C54_too_much_accuracy"
   ],
   "note": "Any scalar. Every step begun in any life passed the check with the weights in force, and these are the weights of the current solution once a step was completed (weights positive); a TooMuchAccuracy return means the check failed and the suggested factor is ten times the ratio."
  },
  {
   "property": "C55",
   "status": "proved",
   "theorems": [
    "C55_root_bracketed",
    "C55_true_root",
    "C55_reported_roots"
   ],
   "note": "Over the reals. C55_root_bracketed: one search from any state with its arrays in place; C55_true_root: with a continuous root function the interpolated solution has a true zero within the tolerance (intermediate values); C55_reported_roots: what a call returning RootReturn tells the user, for all lives."
  },
  {
   "property": "C56",
   "status": "proved",
   "theorems": [
    "C56_search_terminates"
   ],
   "note": "Over the reals: at most 1 + 2*length/tolerance evaluations, for every root function and state. For binary64 with NaN see C58."
  },
  {
   "property": "C57",
   "status": "proved",
   "theorems": [
    "C57_no_root_missed",
    "C57_call_keeps_sign"
   ],
   "note": "Over the reals: one interval, and all calls of a life that return without a root. Watched components only; that components start unwatched is C59."
  },
  {
   "property": "C58",
   "status": "partial",
   "theorems": [
    "C58_refuted"
   ],
   "note": "The statement is false: C58_refuted is a binary64 life whose second call of solve diverges for every fuel, because the root function is NaN between two points (the loop then works with tlo = NaN for ever)."
  },
  {
   "property": "C59",
   "status": "partial",
   "theorems": [
    "C59_first_step_blind",
    "C59_initial_check",
    "C59_refuted"
   ],
   "note": "The statement is false: C59_first_step_blind (over the reals): a life whose root functions do not vanish at the start never reports a root before the second step; C59_refuted: binary64 life in which the only sign change is inside the first step and no root is ever reported. C59_initial_check (any scalar): exactly where the first call evaluates the root functions, and which components it watches."
  },
  {
   "property": "C60",
   "status": "partial",
   "theorems": [
    "C60_direction_inverted",
    "C60_refuted"
   ],
   "note": "The statement is false: the reported value is the sign of the left value, so increasing components give -1 (C60_direction_inverted, over the reals, every search); C60_refuted: binary64 life."
  },
  {
   "property": "C61",
   "status": "proved",
   "theorems": [
    "C61_recheck",
    "C61_next_call"
   ],
   "note": "Over the reals. C61_recheck: every state with its arrays in place and a root at the last return. C61_next_call: every life, the call following a root return."
  },
  {
   "property": "C62",
   "status": "partial",
   "theorems": [
    "C62_g_evals_counted_partial",
    "C62_refuted"
   ],
   "note": "Any scalar: the counter equals the number of calls once the first call has completed a step. False in general: a repeated first call resets the counter to 1 (C62_refuted, binary64 life with two failing first calls)."
  },
  {
   "property": "C63",
   "status": "proved",
   "theorems": [
    "C63_roberts_jacobian",
    "C63_roberts_source"
   ],
   "note": "Over the reals, every entry of the modelled Jacobian is the derivative of the modelled residual."
  },
  {
   "property": "C64",
   "status": "proved",
   "theorems": [
    "C64_velocity_constraints",
    "C64_spring_rate",
    "C64_multipliers",
    "C64_spring_force"
   ],
   "note": "Over the reals; the derivative statements use derivable_pt_lim."
  },
  {
   "property": "C65",
   "status": "partial",
   "theorems": [
    "C65_never_warns",
    "C65_linear_failures_refuted"
   ],
   "note": "Refuted: no life ever issues a warning (any scalar), also when every linear solve fails."
  },
  {
   "property": "C66",
   "status": "proved",
   "theorems": [
    "C66_update_scaled",
    "C66_error_factor"
   ],
   "note": "Exact reals with the dense solver; the error factor for one equation with iteration matrix g + c m."
  },
  {
   "property": "C67",
   "status": "proved",
   "theorems": [
    "C67_convergence_test",
    "C67_accepted",
    "C67_remaining_updates",
    "C67_every_attempt"
   ],
   "note": "Any scalar, for every test in the log of every solve; C67_remaining_updates over the reals. C67_every_attempt: the tolerances, weights and saved factor used in every attempt of every life."
  },
  {
   "property": "C68",
   "status": "proved",
   "theorems": [
    "C68_no_stop_time"
   ],
   "note": ""
  },
  {
   "property": "C69",
   "status": "partial",
   "theorems": [
    "C69_last_solution",
    "C69_dense_output_partial",
    "C69_dense_output_refuted"
   ],
   "note": "C69_last_solution is the first half in full (tret and outputs after a failed step). Second half for failures that leave the current order at least the last used one; otherwise false: C69_dense_output_refuted, an execution with the crate's solvers."
  },
  {
   "property": "C70",
   "status": "proved",
   "theorems": [
    "C70_newton_dense_solves_linear_systems"
   ],
   "note": "Exact arithmetic; composition of the two crates."
  },
  {
   "property": "C71",
   "status": "proved",
   "theorems": [
    "C71_error_estimates",
    "C71_error_estimates_newton",
    "C71_error_estimates_partial"
   ],
   "note": "Exact arithmetic. C71_error_estimates: solvers which report no failure and return vectors of length n (the crate's Newton is one: C71_error_estimates_newton). C71_error_estimates_partial: any solver, as long as it has reported no failure so far. Uniqueness of the estimates: estimate_unique."
  },
  {
   "property": "C72",
   "status": "proved",
   "theorems": [
    "C72_retry",
    "C72_retry_newton",
    "C72_retry_partial"
   ],
   "note": "As C71."
  },
  {
   "property": "C73",
   "status": "proved",
   "theorems": [
    "C73_next_step",
    "C73_next_step_newton",
    "C73_next_step_partial"
   ],
   "note": "As C71. When a higher order is considered (may) is stated with the counter ns; the theorem shows that the k+2 latest steps then have one size."
  },
  {
   "property": "C74",
   "status": "partial",
   "theorems": [
    "C74_constraint_kept_partial",
    "C74_constraint_kept_dense_partial",
    "C74_roberts_partial",
    "C74_constraint_kept_refuted"
   ],
   "note": "Full statement is false: failed error tests in the first step scale the initial value (C38), after which the conserved quantity is another one (C74_constraint_kept_refuted, binary64, crate's solvers, default settings). Proved over the reals for the crate's Newton and any exact direct linear solver (in particular Dense) for lives in which no error test fails before the first accepted step, and without that condition for homogeneous constraints (d = 0); corollary for the crate's Roberts problem."
  },
  {
   "property": "C75",
   "status": "proved",
   "theorems": [
    "C75_linear_exact",
    "C75_outputs_exact"
   ],
   "note": "over the reals, the crate's Newton solver, any linear solver with zero_ls (dense: dense_zero); lives whose first residual evaluation gets the given derivative"
  },
  {
   "property": "C76",
   "status": "proved",
   "theorems": [
    "C76_linear_never_fails",
    "C76_linear_never_fails_dense"
   ],
   "note": "over the reals; with the dense solver the assumption is that the iteration matrices along the solution have independent columns"
  },
  {
   "property": "C77",
   "status": "proved",
   "theorems": [
    "C77_step_sizes",
    "C77_all_outputs",
    "C77_all_outputs_dense"
   ],
   "note": "Over the reals. C77_all_outputs: any linear solver that sets up and solves the matrices along the solution, any weights usable along it; C77_all_outputs_dense: the crate's solvers with scalar tolerances. Example: lin2 with outputs at 1, 2, 10."
  },
  {
   "property": "C78",
   "status": "proved",
   "theorems": [
    "C78_units_dense",
    "C78_time_any_solver",
    "scalar_weights_in",
    "vector_weights_in"
   ],
   "note": "Reals. The equations may be combined by any invertible matrix (u_mix, u_unmix). orel: both runs return related values, both panic or both exhaust the fuel. orderly: until a step is completed only solve is called, and a call that completes none and is followed by others was rejected for its arguments (after a failure behind the first-call block the symmetry is broken, C19)."
  },
  {
   "property": "C79",
   "status": "proved",
   "theorems": [
    "C79_jacobian_arguments"
   ],
   "note": "Any scalar, any linear solver, the crate's Newton."
  },
  {
   "property": "C80",
   "status": "proved",
   "theorems": [
    "C80_linear_equations",
    "C80_algebraic_dense"
   ],
   "note": "R, any exact linear solver (the dense one in C80_algebraic_dense), Newton. C80_hypotheses_met: a life with accepted steps of a system with an algebraic linear equation and one between derivatives; C80_roberts: the last equation of the crate's example."
  },
  {
   "property": "C81",
   "status": "proved",
   "theorems": [
    "C81_rounded_factors",
    "C81_backward_stable",
    "C81_refusal_near_dependent",
    "C81_well_conditioned_accepted"
   ],
   "note": "Rounded arithmetic (ScalarRnd, RoundR.v): every operation has relative error at most u, comparisons are exact; rnd53_rounding shows that f64 rounding to nearest with unbounded exponents is such a rounding with u = 2^-53. Overflow, underflow and NaN are excluded by this model."
  },
  {
   "property": "C82",
   "status": "proved",
   "theorems": [
    "C82_norm_error",
    "C82_weights_error",
    "C82_within_tolerance",
    "C82_accepted_step"
   ],
   "note": "Rounded arithmetic (ScalarRnd, RoundR.v). The accepted-step part is the any-scalar theorem C33 specialised to rounded arithmetic, composed with the error bounds of the norm and of the weights."
  },
  {
   "property": "C83",
   "status": "proved",
   "theorems": [
    "C83_step_sizes",
    "C83_times",
    "C83_never_past_tstop"
   ],
   "note": "rounded arithmetic; C83_f64 shows that rounding to nearest with 53 bits meets the hypotheses"
  },
  {
   "property": "C84",
   "status": "proved",
   "theorems": [
    "C84_same_first_step_same_steps",
    "C84_outputs_do_not_change_the_steps",
    "C84_same_number_of_steps_same_solution",
    "C84_reaching_a_time",
    "C84_output_at_a_time"
   ],
   "note": "Any scalar; C84_output_at_a_time over the reals. Lives in which the first internal step succeeds (a call that leaves the object unstepped was refused for its arguments). Proved by relational reasoning: a step is a function of the stepping fields, and everything the calls do between steps leaves those fields alone. C84_output_at_a_time: calls going forward in time that return normally; the last call asks for a time not just returned."
  },
  {
   "property": "C85",
   "status": "proved",
   "theorems": [
    "C85_interpolation",
    "C85_derivative",
    "C85_prediction",
    "C85_accepted_value",
    "C85_current_time"
   ],
   "note": "rounding model without overflow and underflow; interval lengths assumed nonzero for the interpolation bound to be meaningful"
  },
  {
   "property": "C86",
   "status": "proved",
   "theorems": [
    "C86_root_bracketed",
    "C86_search_terminates",
    "C86_no_root_missed"
   ],
   "note": "rounded arithmetic (relative error at most 2^-53, no overflow or underflow); the interval ends are small compared with the tolerance divided by the unit roundoff, which is hypothesis search_ready"
  },
  {
   "property": "C87",
   "status": "partial",
   "theorems": [
    "C87_refuted",
    "C87_call_returns_partial",
    "C87_first_call_returns",
    "C87_no_roots_returns",
    "C86_search_terminates"
   ],
   "note": "False of the code: C87_refuted shows, on binary64, a first call that returns the solution at t = 1 and a second call, for t = -1000 and g = t^2 - 490000.3, that returns for no number of passes. What holds, in arithmetic with rounding and for every solver that returns: the first call always returns (C87_first_call_returns), every call returns if there are no root functions (C87_no_roots_returns), and a later call returns if the left end of the root search is at most 3 (|t| + |h|) and close to t, or the last returned time is not close to t, and the output time is ahead or at most 3 (|t| + |h|) (C87_call_returns_partial). C86_search_terminates is the search alone."
  },
  {
   "property": "C88",
   "status": "proved",
   "theorems": [
    "C88_forward_life_returns"
   ],
   "note": "forward: the lives; asks_ahead: the output time is not behind the time returned last; not_tiny: |h| <= 10^12 |t|. The returned time is tracked by the relation itself. Conclusion: from some fuel of the inner loops on, the call has one and the same result; the number of internal steps is bounded by mxstep."
  },
  {
   "property": "C89",
   "status": "proved",
   "theorems": [
    "C89_times_go_on"
   ],
   "note": "Arithmetic with rounding (relative error, no underflow or overflow), any lawful nonlinear solver. Lives without root functions and without a stop time; with a stop time the returned time may be ahead of the internal one by the roundoff allowance of the code."
  },
  {
   "property": "C90",
   "status": "proved",
   "theorems": [
    "C90_root_times_go_on"
   ],
   "note": "Arithmetic with rounding (relative error, no underflow or overflow), any lawful nonlinear solver, any root functions. The tolerance is needed: a call that returns an output time closer than the tolerance to the internal time does not search, and leaves the left end of the next search behind the time it returned."
  }
 ]
}