(** * Units: the same problem written in other units

    A user may measure time in other units or run it backwards (factor [L],
    negative for a reversal), measure the solution components in other units
    (factors [m i], negative for a change of sign convention) and replace the
    equations by as many independent combinations of them (other units of the
    residuals, another order of the equations, sums and differences).  This
    file says what the problem, the error weights, the configuration, the calls
    and the answers look like after such a change.  Nothing here refers to the integrator's code. *)
Require Import List Arith Bool Reals.
Import ListNotations.
Require Import Verif.Base Verif.Scalar Verif.ScalarR Verif.RSum Verif.Norms Verif.Newton Verif.IdaState
  Verif.IdaNls Verif.IdaCore Verif.IdaRoots Verif.IdaSolve Verif.IdaIo Verif.IdaReach.
Open Scope R_scope.

(** Component [i] multiplied by [f i]. *)
Definition sv (f : nat -> R) (v : list R) : list R :=
  vtab (length v) (fun i => f i * vget v i).

(** A matrix times a vector. *)
Definition mv (M : nat -> nat -> R) (v : list R) : list R :=
  vtab (length v) (fun i => rsum (length v) (fun k => M i k * vget v k)).

(** Combination [i] of [n] numbers; positions outside the system stay as they
    are (the code never reads them). *)
Definition comb (n : nat) (M : nat -> nat -> R) (f : nat -> R) (i : nat) : R :=
  if (i <? n)%nat then rsum n (fun k => M i k * f k) else f i.

Record units : Type := mkunits {
  u_time : R;            (* new time = u_time * old time *)
  u_comp : nat -> R;     (* new y_i = u_comp i * old y_i *)
  u_mix : nat -> nat -> R;    (* new residual i = sum over k of u_mix i k * old residual k *)
  u_unmix : nat -> nat -> R   (* and back *)
}.

(** For [n] equations: the factors are not zero, the combinations can be undone. *)
Definition units_ok (n : nat) (u : units) : Prop :=
  u_time u <> 0 /\ (forall i, u_comp u i <> 0) /\
  (forall i k, (i < n)%nat -> (k < n)%nat ->
     rsum n (fun p => u_unmix u i p * u_mix u p k) = if (i =? k)%nat then 1 else 0).

Section Units.
Variable u : units.
Notation L := (u_time u).
Notation m := (u_comp u).

(** Times and steps, solution vectors, derivatives, weights. *)
Definition time_in (t : R) : R := L * t.
Definition y_in (y : list R) : list R := sv m y.
Definition yp_in (yp : list R) : list R := sv (fun i => m i * / L) yp.
Definition w_in (w : list R) : list R := sv (fun i => / Rabs (m i)) w.

(** Back to the old units. *)
Definition time_out (t : R) : R := t * / L.
Definition y_out (y : list R) : list R := sv (fun i => / m i) y.
Definition yp_out (yp : list R) : list R := sv (fun i => / m i * L) yp.

(** F(t, y, y') and dF/dy + cj dF/dy' in the new units (chain rule; [cj] is
    one over a time), and the root functions. *)
Definition problem_in (p : problem R) : problem R :=
  mkproblem (model_size p) (num_roots p)
    (fun t y yp => comb (model_size p) (u_mix u) (p_res p (time_out t) (y_out y) (yp_out yp)))
    (fun t cj y yp r i j =>
       / m j * comb (model_size p) (u_mix u)
         (fun k => p_jac p (time_out t) (cj * L) (y_out y) (yp_out yp) (mv (u_unmix u) r) k j) i)
    (fun t y yp i => p_root p (time_out t) (y_out y) (yp_out yp) i).

(** The configured object: initial step, largest step, initial time and stop
    time are times. *)
Definition config_in (c : @config R) : @config R :=
  mkconfig (g_maxord c) (g_mxstep c) (g_maxnef c) (g_maxncf c)
    (time_in (g_hin c)) (g_hmax_inv c * / Rabs L) (g_epcon c) (time_in (g_t0 c))
    (option_map time_in (g_tstop c)) (g_suppressalg c) (g_idv c) (g_rootdir c).

Definition ida_error_in (e : ida_error R) : ida_error R :=
  match e with
  | BadTimeValue t td tc => BadTimeValue (time_in t) (time_in td) (time_in tc)
  | BadStopTime ts t => BadStopTime (time_in ts) (time_in t)
  | TooMuchAccuracy t => TooMuchAccuracy (time_in t)
  | CloseRoots t => CloseRoots (time_in t)
  | e => e
  end.

Definition err_in (e : err R) : err R :=
  match e with EIda e => EIda (ida_error_in e) | e => e end.

Definition result_in {A} (r : result A (err R)) : result A (err R) :=
  match r with Ok a => Ok a | Err e => Err (err_in e) end.

(** What the user asks and what they are told. *)
Definition call_in (c : @call R) : @call R :=
  match c with
  | CallSolve tout tret itask => CallSolve (time_in tout) (time_in tret) itask
  | CallGetSolution t => CallGetSolution (time_in t)
  | CallGetDky t k => CallGetDky (time_in t) k
  end.

Definition reply_in (r : @reply R) : @reply R :=
  match r with
  | ReplySolve tret r => ReplySolve (time_in tret) (result_in r)
  | ReplyUnit r => ReplyUnit (result_in r)
  end.

(** Calls of the user's functions and the internal steps, as recorded in the
    ghost trace. *)
Definition event_in (e : event R) : event R :=
  match e with
  | CRes t y yp => CRes (time_in t) (y_in y) (yp_in yp)
  | CJac t cj y yp => CJac (time_in t) (cj * / L) (y_in y) (yp_in yp)
  | CRoot t y yp => CRoot (time_in t) (y_in y) (yp_in yp)
  | CWarn => CWarn
  | CBegin y w => CBegin (y_in y) (w_in w)
  | CTry t h k => CTry (time_in t) (time_in h) k
  | CFail => CFail
  | CStep t y => CStep (time_in t) (y_in y)
  end.

End Units.

(** ** Runs *)
Section Run.
Context {LSt : Type} {LS : LSolver R LSt} {NSt : Type} {NL : NLSolver R NSt}.

(** Everything the public getters report, and the calls the user's functions
    received, in the two runs. *)
Record reports_in (u : units) (st st' : ida R LSt NSt) : Prop := mkreports {
  ri_yy : get_yy st' = y_in u (get_yy st);
  ri_yp : get_yp st' = yp_in u (get_yp st);
  ri_time : get_current_time st' = time_in u (get_current_time st);
  ri_last_step : get_last_step st' = time_in u (get_last_step st);
  ri_next_step : get_current_setp st' = time_in u (get_current_setp st);
  ri_first_step : get_actual_init_step st' = time_in u (get_actual_init_step st);
  ri_orders : get_last_order st' = get_last_order st /\ get_current_order st' = get_current_order st;
  ri_steps : get_num_steps st' = get_num_steps st;
  ri_counts : get_num_res_evals st' = get_num_res_evals st /\ get_num_jac_evals st' = get_num_jac_evals st /\
    get_num_lin_solv_setups st' = get_num_lin_solv_setups st /\
    get_num_nonlin_solv_iters st' = get_num_nonlin_solv_iters st /\
    get_num_nonlin_solv_conv_fails st' = get_num_nonlin_solv_conv_fails st /\
    get_num_err_test_fails st' = get_num_err_test_fails st /\ get_num_g_evals st' = get_num_g_evals st;
  ri_scale : get_tol_scale_factor st' = get_tol_scale_factor st;
  ri_roots : get_root_info st' = get_root_info st;
  ri_trace : trace (lp (nlp st')) = map (event_in u) (trace (lp (nlp st)))
}.

(** A new object, configured, and a list of calls (each with the bounds on
    its loops); the replies in order. *)
Fixpoint calls_from (prob : problem R) (ewt_set : list R -> list R) (st : ida R LSt NSt)
  (cs : list (nat * nat * @call R)) : outcome (ida R LSt NSt * list (@reply R)) :=
  match cs with
  | [] => Ret (st, [])
  | (fuel, rfuel, c) :: cs =>
      let* (st, r) := api_call prob ewt_set fuel rfuel st c in
      let* (st, rs) := calls_from prob ewt_set st cs in
      Ret (st, r :: rs)
  end.

Definition run (prob : problem R) (ewt_set : list R -> list R) (g : @config R) (yy0 yp0 : list R)
  (cs : list (nat * nat * @call R)) : outcome (ida R LSt NSt * list (@reply R)) :=
  let* st0 := ida_new prob yy0 yp0 in calls_from prob ewt_set (configure g st0) cs.
End Run.

(** Both return (related values), both panic, or both exceed the loop bounds. *)
Definition orel {A B} (P : A -> B -> Prop) (x : outcome A) (y : outcome B) : Prop :=
  match x, y with
  | Ret a, Ret b => P a b
  | Panic, Panic => True
  | Diverge, Diverge => True
  | _, _ => False
  end.
