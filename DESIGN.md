# Formal model of rust-ida in Rocq/Coq 8.16.1

Source: `/repo` (jondo2010/rust-ida at the pinned commit), read as text only.
The workspace at this commit compiles only `crates/linear` and
`crates/nonlinear`; `src/` is the (older, ndarray based) integrator whose
modules `linear`/`nonlinear` were moved into the crates.  We model both crates
and the whole integrator in `src/`, with the crates' Newton and dense solver
plugged into the integrator's `NLS`/`LS` parameters.

## 1. Architecture of the model

* **Scalars.** The Rust code is generic over `Float`/`RealField`.  The model is
  generic over a record class `Scalar T` (operations only, no laws).  Theorems
  are proved at four levels, and each theorem says which:
  - *any scalar*: for every instance of the operations, so in particular for
    IEEE binary64 with NaN, infinities and rounding (control-flow, counting,
    index-safety, termination, safety of acceptance tests);
  - *exact arithmetic*: the instance `R` (standard library reals);
  - *rounded arithmetic*: the instance `ScalarRnd rnd` over `R`, every operation
    followed by `rnd`, of which only a relative error of at most `u` is assumed;
    `rnd53_rounding`: the rounding of f64 with unbounded exponents is one, so
    these theorems speak about f64 as long as nothing overflows or underflows;
  - *binary64*: the instance over Coq primitive floats, used for the witnesses
    of refutations that depend on IEEE semantics and for replaying the
    repository's own unit tests against the model (`ModelTests.v`).
* **Panics and divergence.** `outcome A := Ret a | Panic | Diverge`.  Array
  accesses to the coefficient arrays, subtraction on `usize`, `unwrap` and
  `unimplemented!` yield `Panic`.  `loop`s without a static bound take fuel and
  yield `Diverge` when it runs out; theorems either exclude it or show it.
* **Rust errors** are an inductive `err`; functions with `&mut self` return the
  mutated state together with the result, also on `Err`.
* **Callbacks** (`res`, `jac`, `root`, the `NLProblem` methods, `LSolver`,
  `NLSolver`, `TolControl`) are parameters.  A ghost call trace records callback
  invocations.
* **Vectors** are lists produced by tabulation over `0..model_size`.

Simplifications (also stated at each definition): tracing, profiling, logging
and serialisation are dropped; `Vec`/`ndarray` shape mismatches are not
modelled (all shapes come from `new`); integer overflow of `usize` counters is
not modelled (`nat`); user callbacks are functions of their arguments that
overwrite their whole output buffer.

## 2. Files (rocq/theories)

Model (no proofs):

| file | contents |
|---|---|
| `Base.v`, `Scalar.v` | outcome monad, arrays, scalar class |
| `ScalarR.v`, `ScalarF.v` | exact and binary64 instances |
| `Dense.v` | `crates/linear/src/dense.rs` |
| `Newton.v` | `crates/nonlinear/src/newton.rs`, traits of both crates |
| `Norms.v` | `norm_rms.rs`, `norm_wrms.rs`, `tol_control.rs` |
| `IdaState.v` | `src/lib.rs` struct `Ida`, `src/ida_nls.rs`/`ida_ls.rs` structs, errors, ghost events |
| `IdaNls.v` | `src/ida_nls.rs`, `src/ida_ls.rs` methods; Newton and Dense as solver instances |
| `IdaCore.v` | `new`, `set_coeffs`, `predict`, `nonlinear_solve`, `test_error`, `restore`, `handle_n_flag`, `reset`, `complete_step`, `step`, `get_solution`, `get_dky` |
| `IdaRoots.v` | `src/impl_r_check.rs` |
| `IdaSolve.v` | `src/impl_solve.rs`, `src/impl_stop_test.rs`, first call |
| `IdaIo.v` | `src/ida_io.rs` |
| `Samples.v` | Roberts and slider-crank sample problems |
| `ModelTests.v` | the repository's own unit tests replayed on the binary64 instance (tests of the model, not proofs) |

Specifications and proofs:

| file | contents |
|---|---|
| `BaseFacts`, `RSum`, `VecR`, `NormsR`, `PolyR`, `PolyTop`, `InterpR` | lists, sums, norms, Newton interpolation, derivatives |
| `DenseSpec`, `DenseFacts`, `DenseR`, `DenseSolveR`, `PropDense` | C01-C05 |
| `NewtonSpec`, `NewtonFacts`, `NewtonR`, `NewtonSafe`, `PropNewton` | C06-C12, C70 |
| `PropNorms` | C13-C15 |
| `IdaSpec`, `HistSpec` | vocabulary over the ghost trace: accepted steps, attempts, failures, points of the history |
| `IdaFacts`, `IdaLoops`, `IdaStep`, `IdaShell`, `IdaReach`, `IdaInv`, `IdaCount`, `IdaLife`, `IdaTrace`, `IdaAccept`, `IdaSafe`, `IdaInterp`, `IdaCall`, `IdaNoFail`, `IdaRow0`, `IdaJac` | frame lemmas, what one attempt/step/call does, induction over lives; any scalar |
| `IdaStepR`, `IdaCallR`, `IdaHist`, `IdaHistLife`, `IdaDky`, `RootFacts`, `RootWalk` | the same over the reals; history invariant; root search |
| `Prop*.v` | the property theorems, examples, `Print Assumptions` |
| `PropSelect` | C71-C73: error estimates, retries, next order and step |
| `IdaLinear`, `PropConserve` | C74: linear functionals of the vectors through Newton, the matrix solve and the history |
| `IdaExact`, `PropExact` | C75, C76: solutions linear in time |
| `PropLinear` | C77: their step sizes, and runs through a list of output times |
| `PropFirst` | C18: the exact size of the first step |
| `PropTol` | C67: tolerances and saved factor of every attempt of a life |
| `PropRootLife` | C59, C61: the check of the first call, the call after a root return |
| `Units` | C78: the specification, a problem, settings, calls and reports in other units |
| `UnitsRel`, `UnitsSim` | C78: the two runs side by side, function by function |
| `UnitsDense`, `PropUnits` | C78: the dense solver in other units; the theorems over lists of calls |
| `PropJac` | C79: the arguments of the Jacobian |
| `IdaRows`, `PropRows` | C80: linear equations of the system through Newton's iteration with a current or stale matrix |
| `RoundR`, `DenseRnd`, `PropRound` | rounded arithmetic; C81: rounding errors of the factorisation and of the substitutions |
| `NormsRnd`, `PropNormsRnd` | C82: rounding errors of norms, weights and the error test |
| `IdaStepRnd`, `PropTimesRnd` | C83: step sizes, times and the stop time in rounded arithmetic |
| `IdaKern`, `IdaRuns`, `IdaLives`, `PropOutputs`, `PropGrid` | C84: the internal steps do not depend on output times, call modes, interpolation requests or root functions; the value at an output time does not depend on the output times before it |
| `InterpRnd`, `PropInterpRnd` | C85: interpolated output, prediction and accepted solution in rounded arithmetic |
| `RootRnd`, `RootSearchRnd`, `PropRootsRnd` | C86: the root search in rounded arithmetic |
| `PropRootsHang` | C87: a search that never ends with finite root functions |
| `ReturnAny` | any scalar: a call settles (result independent of the fuel of the inner loops) if its steps and root searches do |
| `PropReturnRnd` | C87, positive part: calls made in a ready state return in arithmetic with rounding |
| `PropForwardRnd` | C88: a life of calls with output times that never go back returns |
| `PropOnward` | C89: returned times go on in the direction of integration and are never ahead of the internal time |
| `PropRootOrder` | C90: the same with root functions, up to the tolerance of the root search |
| `Script`, `ExampleR`, `ExampleRoot`, `Witness` | total solver objects and concrete lives used to show that hypotheses can be met |
| `FloatBad` | infinite weights in binary64 norms |

### Lives of an object

Statements about the integrator quantify over *lives*: `reach prob ewt_set c
yy0 yp0 st` holds of the states reachable from `new` followed by any
configuration `c` of the private fields (`config_ok`: orders between 1 and 5)
and any sequence of API calls (`api_call`: solve in both modes, get_solution,
get_dky, the getters), successful or not, with any arguments.  `pieces`,
`limited`, `fresh`, `tries`, `attempt_in`, `step_in` locate the beginning of a
step or of an attempt inside such a call.  Ghost events (pushed on the trace in
the state, never read by the model; `C06_log_is_ghost` for Newton): residual,
Jacobian and root evaluations (`CRes`, `CJac`, `CRoot`), warnings (`CWarn`),
beginning of a step (`CBegin`), attempt (`CTry`), failed error test (`CFail`),
accepted step (`CStep`).

### Not modelled

Logging, serialisation, `Drop`, profiling, `impl Trait` plumbing; `usize`
overflow; shapes of arrays which the types fix (a Rust view cannot change its
length: hypothesis `sized` of C71-C73); callbacks with hidden mutable state
(the residual, Jacobian and root functions are functions); inequality
constraints (`constraints` is never set through the API, the branch is
`unimplemented!()` and is modelled as `Panic`); `IDACalcIC` (absent from the
crate); non-dense linear solvers (parameters in the A and R theorems).

## 3. Trusted base

* Coq 8.16.1 kernel (including `vm_compute` and primitive floats/ints for
  the binary64 examples).
* Axioms of the standard library, as printed by `Print Assumptions` next to
  every theorem; no axioms of our own and of no other library:
  - for statements over `R`: `ClassicalDedekindReals.sig_forall_dec`,
    `ClassicalDedekindReals.sig_not_dec`,
    `FunctionalExtensionality.functional_extensionality_dep`, and
    `Classical_Prop.classic` where lemmas of analysis use it;
  - for binary64 statements: the primitive types and operations
    (`PrimFloat.*`, `PrimInt63.*`/`Uint63`), and in `FloatBad`/`PropWeights`
    their specification in `Coq.Floats.FloatAxioms` (`add_spec`, `mul_spec`,
    `div_spec`, `SF2Prim_Prim2SF`);
  - statements for any scalar are closed under the global context.
* The transcription of the Rust code into the model (each definition cites file
  and lines).  `sofnat` stands for `NumCast::from`, `spowf` for `powf`,
  `seps` for the unit roundoff; over `R`, `seps` is the binary64 value, so
  "roundoff allowances" of the code stay visible in the exact theorems.

<!-- assumptions -->
### What `Print Assumptions` lists, per theorem of MANIFEST.json

* *closed under the global context*:
  `C04_dense_pivots_in_range`, `C05_dense_solve_no_panic_partial`, `C05_dense_empty_refuted`, `C26_rejected_untouched`, `C29_no_panic_partial`, `C29_value_panics`, `C30_bad_k`, `C39_failure_ends_the_call`, `C39_recoverable_reaction`, `C84_reaching_a_time`, `newton_reports_no_failure`, `C31_orders`, `C32_order_changes`, `C33_accepted_step_passed_the_error_test`, `C35_at_most_ten_failures`, `C40_accepted_solution`, `C40_residual_arguments`, `C43_jac_time_partial`, `C53_counters_are_exact`, `C53_counters_are_monotone`, `C79_jacobian_arguments`, `C06_log_is_ghost`, `C06_newton_ok_means_accepted`, `C07_newton_iteration_bound`, `C08_newton_counters_exact`, `C09_newton_returns_refuted`, `C09_newton_attempt_returns_partial`, `C09_newton_returns_partial`, `C10_recover_never_reported_refuted`, `C11_newton_refresh_refuted`, `C11_newton_protocol_partial`, `C11_attempt_setups_partial`, `C40_system`, `C40_jacobian`, `C42_refresh_policy`, `C44_setup_error_panics`, `C65_never_warns`, `C67_convergence_test`, `C67_accepted`, `C13_norm_implementations_agree`, `C84_same_first_step_same_steps`, `C84_outputs_do_not_change_the_steps`, `C84_same_number_of_steps_same_solution`, `C19_rejected_call_partial`, `C19_accuracy_scales`, `C59_initial_check`, `C62_g_evals_counted_partial`, `C31_no_panic`, `C31_newton_dense_no_panic`, `C35_step_returns`, `C47_solve_returns`, `C45_normal_success`, `C46_one_step`, `C47_step_limit`, `C68_no_stop_time`, `C54_steps_checked`, `C17_too_close`, `C50_tstop_cleared_partial`, `C50_one_step_stuck`, `C51_same_tout`, `C54_too_much_accuracy`, `C67_every_attempt`.
* primitive types and operations (`PrimFloat.*`, `PrimInt63.*`):
  `C74_constraint_kept_refuted`, `C26_refuted`, `C27_refuted`, `C28_refuted`, `C29_refuted`, `C39_refuted`, `C20_after_failures_refuted`, `C23_refuted`, `C38_refuted`, `C69_dense_output_refuted`, `C43_jac_time_refuted`, `C44_singular_matrix_refuted`, `C65_linear_failures_refuted`, `C19_refuted`, `C19_accuracy_refuted`, `C58_refuted`, `C59_refuted`, `C60_refuted`, `C62_refuted`, `C87_refuted`, `C50_refuted`.
* `ClassicalDedekindReals.sig_forall_dec`, `FunctionalExtensionality.functional_extensionality_dep`:
  `C85_derivative`.
* `ClassicalDedekindReals.sig_forall_dec`, `ClassicalDedekindReals.sig_not_dec`, `FunctionalExtensionality.functional_extensionality_dep`:
  `C64_velocity_constraints`, `C64_spring_rate`, `C64_multipliers`, `C64_spring_force`.
* `ClassicalDedekindReals.sig_forall_dec`, `ClassicalDedekindReals.sig_not_dec`, `Classical_Prop.classic`, `FunctionalExtensionality.functional_extensionality_dep`:
  `C74_constraint_kept_partial`, `C74_constraint_kept_dense_partial`, `C74_roberts_partial`, `C01_dense_lu_factorisation`, `C02_dense_solve_solves`, `C02_dense_solution_unique`, `C03_dense_ok_iff_independent`, `C03_dense_err_iff_dependent`, `C04_dense_multipliers_bounded`, `C26_window_partial`, `C26_late_accepted`, `C27_first_order_partial`, `C27_formula`, `C28_derivatives_partial`, `C28_truncated`, `C75_linear_exact`, `C75_outputs_exact`, `C76_linear_never_fails`, `C76_linear_never_fails_dense`, `C18_first_step_size`, `C88_forward_life_returns`, `C84_output_at_a_time`, `C20_coefficients`, `C20_coefficients_newton`, `C20_coefficients_partial`, `C21_rejected_attempt_undone_partial`, `C22_predictor_partial`, `C22_residual_calls_partial`, `C23_dense_output_partial`, `C24_consistent_pair`, `C25_at_tn`, `C32_raised_after_constant_steps`, `C32_raised_newton`, `C32_raised_after_constant_steps_partial`, `C41_constant_steps_partial`, `C41_low_orders_partial`, `C69_last_solution`, `C69_dense_output_partial`, `C38_scaled`, `C40_history_holds_the_solution`, `C85_interpolation`, `C85_prediction`, `C85_accepted_value`, `C85_current_time`, `C77_step_sizes`, `C77_all_outputs`, `C77_all_outputs_dense`, `C12_newton_affine_exact`, `C70_newton_dense_solves_linear_systems`, `C42_refresh_window_R`, `C66_update_scaled`, `C66_error_factor`, `C67_remaining_updates`, `C13_norm_wrms_formula`, `C13_norm_wrms_is_a_norm`, `C14_masked_norm`, `C14_wrms_norm_selects`, `C15_ewt_scalar_tolerance`, `C15_ewt_vector_tolerance`, `C15_within_scalar_tolerance`, `C15_within_vector_tolerance`, `C82_norm_error`, `C82_weights_error`, `C82_within_tolerance`, `C82_accepted_step`, `C89_times_go_on`, `C47_solve_returns_reals`, `C87_call_returns_partial`, `C87_first_call_returns`, `C87_no_roots_returns`, `C61_next_call`, `C90_root_times_go_on`, `C55_root_bracketed`, `C55_true_root`, `C55_reported_roots`, `C56_search_terminates`, `C57_no_root_missed`, `C57_call_keeps_sign`, `C59_first_step_blind`, `C60_direction_inverted`, `C61_recheck`, `C86_root_bracketed`, `C86_search_terminates`, `C86_no_root_missed`, `C81_rounded_factors`, `C81_backward_stable`, `C81_refusal_near_dependent`, `C81_well_conditioned_accepted`, `C80_linear_equations`, `C80_algebraic_dense`, `C63_roberts_jacobian`, `C63_roberts_source`, `C71_error_estimates`, `C71_error_estimates_newton`, `C71_error_estimates_partial`, `C72_retry`, `C72_retry_newton`, `C72_retry_partial`, `C73_next_step`, `C73_next_step_newton`, `C73_next_step_partial`, `C18_first_step`, `C34_retries_shrink`, `C36_next_step_size`, `C37_max_step_respected`, `C45_outputs_at_tout`, `C48_time_moves_forward`, `C49_never_past_tstop`, `C49_tstop_return`, `C51_same_tout_R`, `C52_before_last_step`, `C83_step_sizes`, `C83_times`, `C83_never_past_tstop`, `C78_units_dense`, `C78_time_any_solver`, `scalar_weights_in`, `vector_weights_in`.
* `FloatAxioms.SF2Prim_Prim2SF`, `FloatAxioms.add_spec`, `FloatAxioms.div_spec`, `FloatAxioms.mul_spec`, primitive types and operations (`PrimFloat.*`, `PrimInt63.*`):
  `C16_zero_tolerance_never_steps`, `C16_refuted`.

<!-- /assumptions -->

## 4. Properties: what is modelled and how it is proved

Level: A = any scalar, R = exact arithmetic, F = binary64, "rounded arithmetic" = section 1.
"refuted" = the property as documented is false of the code; the theorem
exhibits the witness and, where useful, the part that does hold is proved.

| id | plan |
|---|---|
| C01 | R; loop invariant of the elimination over row permutations |
| C02 | R; forward/backward substitution invariants + C01 |
| C03 | R; zero pivot column gives a kernel vector, nonzero pivots give injectivity |
| C04 | A for ranges, R for multipliers |
| C05 | A for n >= 1; refuted for n = 0 (`0..(n-1)` underflow, `b[0]`) |
| C06, C07, C08, C11 | A; induction on the attempt/iteration loops over a call trace |
| C09, C10 | refuted: a recoverable failure with a current Jacobian falls through and the outer loop repeats; `ConvergenceRecover` is never returned |
| C12 | R; affine algebra |
| C13, C14, C15 | R; Cauchy-Schwarz on lists |
| C16 | F; refuted by `recip(0) = inf > 0` |
| C17, C18 | A/R; unfolding of the first-call block |
| C19 | refuted: `phi[1] *= hh` is executed again |
| C20..C23 | R; history invariant: phi are scaled divided differences of the accepted values, psi sums of recent steps, preserved by set_coeffs/predict/restore/complete_step; induction over histories |
| C24, C25 | R; product-rule induction |
| C26 | lower side proved (A); upper side refuted |
| C27 | y part proved, y' part refuted for kused >= 2 |
| C28 | k = 0 (kused <= 4), k = 1, k = kused proved; 2 <= k < kused refuted |
| C29 | refuted for k = 0, kused = 5; proved otherwise |
| C30 | A |
| C31, C32, C33, C35, C47, C53, C62 | A; state invariants over arbitrary API histories |
| C34, C36, C37, C48, C49 | R; (range of factors also for binary64 max/min where possible) |
| C38 | refuted: `reset` scales the whole history, including y0 |
| C39 | refuted: nonlinear errors are not downcast to `IdaError`, no retry happens |
| C40, C41 | R (C40 definition-level parts A) |
| C42, C45, C46, C51, C52, C54 | A |
| C43 | refuted: jac always gets t = 0 |
| C44 | refuted: unwrap panics |
| C50 | Normal mode proved, OneStep refuted |
| C55, C56, C57 | R; bracket invariant of the Illinois loop, IVT for the true zero |
| C58 | F; refuted with NaN |
| C59, C60 | refuted: activation flags start false; the sign is inverted |
| C61, C66, C67 | A/R |
| C63, C64 | R; derivatives |
| C65 | refuted: the counter of nonlinear iterations is never updated |
| C68 | A; invariant over API histories |
| C69 | outputs proved; dense output refuted when the failed attempt had lower order than the last step |
| C70 | R; composition of C01-C03 with the Newton loop |
| C71, C72, C73 | R; the estimates as derivatives of interpolating polynomials (Newton form, top coefficient), then the decision code case by case; never-failing solvers and the crate's Newton |
| C74 | R; a linear functional followed through predictor, Newton loop, factored matrix, history update and restore, by the induction over lives; refuted (binary64) when the first step fails its error test |
| C75 | R, Newton; every prediction from exact points is exact (uniqueness of interpolation), so residual, correction and error estimate vanish; induction over lives |
| C76 | R, Newton; one attempt computed through with a zero residual; every step of the call returns with success; composed with the termination argument of C47 |
| C77 | R, Newton; the estimates of an exact attempt vanish, so the next size is determined by C73; growth of the steps along the loop of a call; induction over the output times with an invariant between calls |
| C78 | R; simulation: a relation between the states of the two runs kept by every function of the model, results related, loops run in step |
| C79 | A, Newton; trace invariant by the induction over lives |
| C80 | R, Newton, exact linear solver; loop invariant of the Newton iteration, then the induction over lives |
| C81 | rounded arithmetic; the loop invariants of C01 and C02 with a factor `1 + O(u)` in every term, collected into the perturbation of the matrix; growth of the entries as a further invariant |
| C82 | rounded arithmetic; relative error factors collected through the loop of the norm; C33 (A) at the rounded instance |
| C83 | rounded arithmetic, the rounding monotone and idempotent; the invariant of C36/C37/C49 over the life of the object with rounded sums and products; signs are exact, the factor 1-4eps absorbs the roundings in front of the stop time |
| C84 | any scalar; the nonlinear solver natural (it uses the problem's state only through the problem's methods: a relational parametricity statement, proved for Newton); a step commutes with replacing the fields it does not read (`put`), so it is a function of the others (`kcore`) and the weights; between steps a life changes only unread fields (`shell`); hence every life is one deterministic run from a start determined by the first step size. `C84_reaching_a_time` (any scalar): two lives that have just passed the same time are at the same point of that run. `C84_output_at_a_time` (reals): if calls go forward in time, the solution returned at `tout` is the same for every choice of the output times before it (step sizes keep their sign, no step is begun past `tout`) |
| C85 | every operation rounded with relative error u; `close m X a b` (a is within `((1+u)^m - 1) X` of b, and X bounds b) is kept by rounding, sums, products and quotients; the interpolation loop of `get_solution` against the Newton basis polynomials `basis` (with `dbasis` their derivatives, `C85_derivative`), the predictor against the sum of the history rows, and the updated row 0 of the history against the solution the step accepted (the two are summed in a different order; the bound is in terms of the rows stored after the step). `C85_current_time`: right after a step `get_solution` at the current time returns the stored row 0 exactly (rounding idempotent). The division is total in the rounding model: an interval length of zero makes the interpolation bound meaningless |
| C86 | every operation of the search rounded, relative error u at most 2^-53. `RootRnd`: the next abscissa of a pass lies strictly between the ends, at least a quarter of the tolerance from both (`next_tmid_rnd`), because the rounding errors of the secant point are at most 12 u max(abs lo, abs hi) and the two guards move points closer than half the tolerance; this needs `60 u B <= tol` where B bounds the ends. The signs tested by the code are exact (no underflow). `RootSearchRnd` repeats the loop invariant of `RootFacts` (C55-C57) with these bounds; `PropRootsRnd` states them for `r_check3`. Hypothesis `search_ready`: both ends at most 3 (abs t + abs h); a search over an output time far behind the current time may violate it and then never end (C87) |
| C87 | refuted on binary64: `PropRootsHang` presents one pass of the search as a function `pass` of both ends, their values, the weight and the sides (`pass_loop`: `root_loop` follows it), so that a situation met twice means the search never ends (`orbit_diverges`); computed for g = t^2 - 490000.3 and an output time -1000 after a first call to t = 1; positive part (`PropReturnRnd`): inside a call the searched interval after a step runs from the time before the step to the time after it or to the output time between them, and the next step size is at least 1/2.3 of the step made (`step_time_rnd`), so that `C86_search_terminates` applies to every search but the one at the start of a call, for which `call_ready` asks what is needed of the state found |
| C88 | `PropForwardRnd`: a call that ends with a status leaves the left end of the root search at the current time or at the time it returned, within 3 (abs t + abs h) (`call_well`, by the ways a call can end: `stop1_done`, `stop2_done`, `found_bound`, `searched_well`); with an output time not behind the time returned last this is `call_ready` (`well_ready`), so C87_call_returns_partial applies; induction over the calls (`forward_well`) |
| C89 | `PropOnward`: between calls the internal time is not behind the returned one (`behind`), inside a call it is not behind the time returned last and the direction is kept (`past`; `enters_past`, `step_past` from `step_time_rnd` and `head_tout_rnd`, `loops_past`); the stop tests without a stop time (`stop1_none`, `stop2_none`) then give the claim (`call_onward`); induction over the calls (`onward_behind`) |
| C90 | `PropRootOrder`: order in the direction of the step (`upto`); between calls the left end of the search, the time returned last and the internal time come in this order, and the left end is the time returned last or within the tolerance of the internal time (`ordered`); inside a call `inside`; a search keeps to its interval (`found_between`, from C86) whose right end is the earlier of internal and output time (`search_side`); ways a call can end: `later_order`, `step_order`, `call_order` give `ended`; induction over the calls (`forward_ordered`) |

## 5. Findings

Behaviour of the code which differs from its documentation or from IDA; each is
a theorem of the model (`..._refuted` with a witness, or a statement for all
executions).

Dense solver and Newton
1. `Dense::solve` with n = 0 underflows `0..(n-1)` (C05).
2. Newton repeats for ever after a recoverable failure with a current Jacobian;
   `ConvergenceRecover` is never returned (C09, C10, C11).  So the integrator
   never sees a nonlinear failure from the crate's own solver.

Calls of the problem and the linear solver
3. `jac` is always called with t = 0 (C43).
4. A set-up error of the linear solver is unwrapped: panic (C44).  Errors of
   linear solves are swallowed by `nlp_solve`.
5. `ida_nni` is never updated, so the performance warnings never fire (C65);
   `get_num_lin_iters` is always 0.

First call
6. Weights are not checked before the first step and infinite weights pass the
   check; with a zero tolerance the first call never returns (C16).
7. A failing first call leaves phi[1] (and after a failed error test phi[0])
   scaled; the next call starts from wrong initial values (C19).
8. `reset` after a failed first attempt scales the whole history including y0
   (C38).

Steps
9. Errors of a nonlinear solver are never downcast to `IdaError`, so there is no
   retry after a nonlinear failure (C39); `RecoverableFail` is never constructed.
10. Too many error-test failures are reported as an untyped error.
11. `restore` does not restore psi[kk] (C21, C23, C69); after a failure with an
    order reduction `get_solution` interpolates with the wrong rows (C23, C69).
12. `ns` over-counts after a nonlinear error followed by another call of solve
    (C20_after_failures_refuted).
13. The comparison for the stop time in the attempt (lib.rs 655) tests `> one()`
    (IDA: `> 0`), a quantity with the dimension of a squared time. In exact
    arithmetic the branch is never taken (the step was cut to the stop time
    before), so the units do not matter here either (C78).

Stop time and outputs
14. In OneStep mode stop_test1 does not clear the stop time: every later call
    returns it again (C50).  The stop time cannot be set through the API (C68).
15. After TooMuchWork the outputs are not interpolated at tret.
16. get_solution: documentation false for kused >= 2 (C27); times after tn are
    never rejected (C26).
17. get_dky: the inner loops stop too early, derivatives 2 <= k < kused are
    wrong (C28); k = 0 at order 5 panics (C29); at kused = 0 only phi[0] is used
    while get_solution uses order 1.

Roots
18. Components start unwatched unless zero: roots in the first step are missed
    (C59).
19. The reported direction is inverted (C60).
20. A NaN root function makes the search loop for ever (C58).
21. A repeated first call resets the evaluation counter to 1 (C62).
22. r_check1 overwrites nonzero left values with those at t0 + small when
    another component is zero; irfnd is not cleared by the checks after a step;
    asking again at a root located at tn may leave outputs at the shifted time;
    a backward tout makes r_check3 search a reversed interval, before the check
    that would reject it; far enough behind, neighbouring floats are farther
    apart than the root tolerance, and the search may never end although the
    root functions are finite (C87).

## 6. How to read seeded/LOG.jsonl

`theorems_failed` lists the property theorems that failed **or that depend on a lemma
whose proof failed**. The script that ran the mutations replaced each broken proof by
`Admitted` in the scratch copy, built on, and then took the theorems whose proofs use a
broken lemma (dependencies of the unmutated development). The list is therefore too
large: a lemma about a whole state (`IdaShell`, `IdaReach`, `IdaSafe`) breaks under
most edits of the functions it is about, and nearly every theorem about lives depends on it.
That a theorem is in the list does not show that its statement is false of the mutant,
only that its proof does not go through as it stands; an unrelated theorem in the list
(C16 under an edit of the root search, say) means nothing more.

`proofs_failed`, where recorded (179 of 217 entries), lists the proofs that broke themselves,
with the broken ones before them assumed. In 15 of these the proof of a theorem of the named
claim is itself among them. In the others the claim was counted as detected because a lemma
it uses broke: many property theorems are short consequences of a lemma, and pass once that
lemma is assumed. No proof was made that the statement is false of the mutant, so these are
the weaker evidence. The entries without the field are from runs that did not keep it.

The series of mutations of the root search made last (C87, C88) was stopped
after the 5 entries logged, out of 44 planned; the others were not run, and no
mutation was run against C89 and C90.
