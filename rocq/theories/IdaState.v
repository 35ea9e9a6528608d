(** * IdaState: the state of the integrator

    Records mirroring the Rust structs, with one setter per field
    ([set_f v s] is [{ ..s, f: v }]).  Generated mechanically from the struct
    definitions; fields that the code never reads (work spaces, unused counters
    of the linear solver, [ida_constraints], [ida_zvecs]) are omitted. *)
Require Import List Arith Bool.
Import ListNotations.
Require Import Verif.Base Verif.Scalar Verif.Dense Verif.Newton.

(** [IdaTask], src/lib.rs 47-52. *)
Inductive task : Type := Normal | OneStep.

(** [IdaSolveStatus], src/lib.rs 54-63. *)
Inductive solve_status : Type := ContinueSteps | Success | TStop | RootReturn.

(** [RootStatus], src/impl_r_check.rs 3-6. *)
Inductive root_status : Type := RootFound | RootContinue.

(** Which [IllegalInput] message is produced (src/impl_solve.rs). *)
Inductive illegal : Type :=
| ToutTooClose | StepNotTowardsTout | TstopBehind | TooMuchWork | EwtBad.

(** [Recoverable], src/error.rs 3-15. *)
Inductive recoverable : Type :=
| RecResidual | RecLSetup | RecLSolve | RecConstraint | RecNLSSetup.

(** [IdaError], src/error.rs 17-126: the variants that the integrator
    constructs or matches on. *)
Inductive ida_error (T : Type) : Type :=
| TestFail
| IllegalIn (msg : illegal)
| RecoverableFail (r : recoverable)
| ResidualFail
| ConstraintFail
| ConvergenceFail
| BadK
| BadTimeValue (t tdiff tcurr : T)
| BadStopTime (ts t : T)
| TooMuchAccuracy (t : T)
| CloseRoots (t : T).
Arguments TestFail {T}.  Arguments IllegalIn {T}.  Arguments RecoverableFail {T}.
Arguments ResidualFail {T}.  Arguments ConstraintFail {T}.  Arguments ConvergenceFail {T}.
Arguments BadK {T}.  Arguments BadTimeValue {T}.  Arguments BadStopTime {T}.
Arguments TooMuchAccuracy {T}.  Arguments CloseRoots {T}.

(** [failure::Error]: an [IdaError], an error of the nonlinear solver, or a
    [format_err!] string (src/lib.rs 1204).  [downcast::<IdaError>()] succeeds
    exactly on [EIda]. *)
Inductive err (T : Type) : Type :=
| EIda (e : ida_error T)
| ENls (e : nlerr)
| EFmt.
Arguments EIda {T}.  Arguments ENls {T}.  Arguments EFmt {T}.

(** Ghost events: calls of the user's callbacks, warnings, and the life of an
    internal step (entry of [Ida::step] with the solution reached and the
    error weights; start of an attempt with time, step
    size and order; failed error test; commit with the new time and the
    corrected solution). *)
Inductive event (T : Type) : Type :=
| CRes (t : T) (y yp : list T)
| CJac (t cj : T) (y yp : list T)
| CRoot (t : T) (y yp : list T)
| CWarn
| CBegin (y w : list T)
| CTry (t h : T) (k : nat)
| CFail
| CStep (t : T) (y : list T).
Arguments CRes {T}.  Arguments CJac {T}.  Arguments CRoot {T}.  Arguments CWarn {T}.
Arguments CBegin {T}.  Arguments CTry {T}.  Arguments CFail {T}.  Arguments CStep {T}.

(** The user's problem: traits [ModelSpec], [Residual], [Jacobian], [Root],
    src/traits.rs 6-94.  A callback writes its output buffer through the index
    functions given here (so it always has the right shape). *)
Record problem (T : Type) : Type := mkproblem {
  model_size : nat;
  num_roots : nat;
  p_res : T -> list T -> list T -> nat -> T;
  p_jac : T -> T -> list T -> list T -> list T -> nat -> nat -> T;
  p_root : T -> list T -> list T -> nat -> T
}.
Arguments mkproblem {T}.  Arguments model_size {T}.  Arguments num_roots {T}.
Arguments p_res {T}.  Arguments p_jac {T}.  Arguments p_root {T}.

(** [LSolverType], crates/linear/src/lib.rs 18-45. *)
Inductive lstype : Type := Direct | Iterative | MatrixIterative.

(** The [LSolver] trait, crates/linear/src/traits.rs 32-121, as used by the
    integrator.  [ls_setup] may overwrite the matrix; errors carry the column. *)
Class LSolver (T LSt : Type) := {
  ls_new : nat -> LSt;
  ls_type : LSt -> lstype;
  ls_setup : LSt -> mat T -> outcome (LSt * mat T * result unit nat);
  ls_solve : LSt -> mat T -> list T -> list T -> T -> outcome (list T * result unit nat);
  ls_num_iters : LSt -> nat
}.

(** The [NLSolver] trait, crates/nonlinear/src/traits.rs 132-192. *)
Class NLSolver (T NSt : Type) := {
  nls_new : nat -> nat -> NSt;
  nls_setup : NSt -> list T -> outcome (NSt * list T * result unit nlerr);
  nls_solve : forall S : Type, nlproblem T S -> nat -> NSt -> S ->
              list T -> list T -> list T -> T -> bool ->
              outcome (NSt * S * list T * result unit nlerr);
  nls_num_iters : NSt -> nat
}.

Section State.
Context {T LSt NSt : Type}.

(** [IdaLProblem], src/ida_ls.rs 14-103. *)
Record lprob : Type := mklprob {
  lp_ls : LSt;  (* ls: the linear solver object *)
  lp_matj : mat T;  (* mat_j *)
  lp_x : list T;  (* x: linear solve result *)
  lp_sqrtn : T;  (* sqrt_n *)
  lp_eplifac : T;  (* eplifac *)
  nje : nat;  (* no. of calls to jac *)
  nli : nat;  (* linear iterations *)
  ncfl : nat;  (* linear convergence failures *)
  nst0 : nat;  (* saved nst (performance monitor) *)
  nni0 : nat;  (* saved nni *)
  ncfn0 : nat;  (* saved ncfn *)
  ncfl0 : nat;  (* saved ncfl *)
  nwarn : nat;  (* no. of warnings *)
  cj : T;  (* ida_cj: leading coefficient *)
  cjold : T;  (* ida_cjold *)
  cjratio : T;  (* ida_cjratio *)
  trace : list (event T)  (* ghost: events, newest first (not in the Rust code) *)
}.

Definition set_lp_ls (v : LSt) (s : lprob) : lprob :=
  mklprob v (lp_matj s) (lp_x s) (lp_sqrtn s) (lp_eplifac s) (nje s) (nli s) (ncfl s) (nst0 s) (nni0 s) (ncfn0 s) (ncfl0 s) (nwarn s) (cj s) (cjold s) (cjratio s) (trace s).
Definition set_lp_matj (v : mat T) (s : lprob) : lprob :=
  mklprob (lp_ls s) v (lp_x s) (lp_sqrtn s) (lp_eplifac s) (nje s) (nli s) (ncfl s) (nst0 s) (nni0 s) (ncfn0 s) (ncfl0 s) (nwarn s) (cj s) (cjold s) (cjratio s) (trace s).
Definition set_lp_x (v : list T) (s : lprob) : lprob :=
  mklprob (lp_ls s) (lp_matj s) v (lp_sqrtn s) (lp_eplifac s) (nje s) (nli s) (ncfl s) (nst0 s) (nni0 s) (ncfn0 s) (ncfl0 s) (nwarn s) (cj s) (cjold s) (cjratio s) (trace s).
Definition set_lp_sqrtn (v : T) (s : lprob) : lprob :=
  mklprob (lp_ls s) (lp_matj s) (lp_x s) v (lp_eplifac s) (nje s) (nli s) (ncfl s) (nst0 s) (nni0 s) (ncfn0 s) (ncfl0 s) (nwarn s) (cj s) (cjold s) (cjratio s) (trace s).
Definition set_lp_eplifac (v : T) (s : lprob) : lprob :=
  mklprob (lp_ls s) (lp_matj s) (lp_x s) (lp_sqrtn s) v (nje s) (nli s) (ncfl s) (nst0 s) (nni0 s) (ncfn0 s) (ncfl0 s) (nwarn s) (cj s) (cjold s) (cjratio s) (trace s).
Definition set_nje (v : nat) (s : lprob) : lprob :=
  mklprob (lp_ls s) (lp_matj s) (lp_x s) (lp_sqrtn s) (lp_eplifac s) v (nli s) (ncfl s) (nst0 s) (nni0 s) (ncfn0 s) (ncfl0 s) (nwarn s) (cj s) (cjold s) (cjratio s) (trace s).
Definition set_nli (v : nat) (s : lprob) : lprob :=
  mklprob (lp_ls s) (lp_matj s) (lp_x s) (lp_sqrtn s) (lp_eplifac s) (nje s) v (ncfl s) (nst0 s) (nni0 s) (ncfn0 s) (ncfl0 s) (nwarn s) (cj s) (cjold s) (cjratio s) (trace s).
Definition set_ncfl (v : nat) (s : lprob) : lprob :=
  mklprob (lp_ls s) (lp_matj s) (lp_x s) (lp_sqrtn s) (lp_eplifac s) (nje s) (nli s) v (nst0 s) (nni0 s) (ncfn0 s) (ncfl0 s) (nwarn s) (cj s) (cjold s) (cjratio s) (trace s).
Definition set_nst0 (v : nat) (s : lprob) : lprob :=
  mklprob (lp_ls s) (lp_matj s) (lp_x s) (lp_sqrtn s) (lp_eplifac s) (nje s) (nli s) (ncfl s) v (nni0 s) (ncfn0 s) (ncfl0 s) (nwarn s) (cj s) (cjold s) (cjratio s) (trace s).
Definition set_nni0 (v : nat) (s : lprob) : lprob :=
  mklprob (lp_ls s) (lp_matj s) (lp_x s) (lp_sqrtn s) (lp_eplifac s) (nje s) (nli s) (ncfl s) (nst0 s) v (ncfn0 s) (ncfl0 s) (nwarn s) (cj s) (cjold s) (cjratio s) (trace s).
Definition set_ncfn0 (v : nat) (s : lprob) : lprob :=
  mklprob (lp_ls s) (lp_matj s) (lp_x s) (lp_sqrtn s) (lp_eplifac s) (nje s) (nli s) (ncfl s) (nst0 s) (nni0 s) v (ncfl0 s) (nwarn s) (cj s) (cjold s) (cjratio s) (trace s).
Definition set_ncfl0 (v : nat) (s : lprob) : lprob :=
  mklprob (lp_ls s) (lp_matj s) (lp_x s) (lp_sqrtn s) (lp_eplifac s) (nje s) (nli s) (ncfl s) (nst0 s) (nni0 s) (ncfn0 s) v (nwarn s) (cj s) (cjold s) (cjratio s) (trace s).
Definition set_nwarn (v : nat) (s : lprob) : lprob :=
  mklprob (lp_ls s) (lp_matj s) (lp_x s) (lp_sqrtn s) (lp_eplifac s) (nje s) (nli s) (ncfl s) (nst0 s) (nni0 s) (ncfn0 s) (ncfl0 s) v (cj s) (cjold s) (cjratio s) (trace s).
Definition set_cj (v : T) (s : lprob) : lprob :=
  mklprob (lp_ls s) (lp_matj s) (lp_x s) (lp_sqrtn s) (lp_eplifac s) (nje s) (nli s) (ncfl s) (nst0 s) (nni0 s) (ncfn0 s) (ncfl0 s) (nwarn s) v (cjold s) (cjratio s) (trace s).
Definition set_cjold (v : T) (s : lprob) : lprob :=
  mklprob (lp_ls s) (lp_matj s) (lp_x s) (lp_sqrtn s) (lp_eplifac s) (nje s) (nli s) (ncfl s) (nst0 s) (nni0 s) (ncfn0 s) (ncfl0 s) (nwarn s) (cj s) v (cjratio s) (trace s).
Definition set_cjratio (v : T) (s : lprob) : lprob :=
  mklprob (lp_ls s) (lp_matj s) (lp_x s) (lp_sqrtn s) (lp_eplifac s) (nje s) (nli s) (ncfl s) (nst0 s) (nni0 s) (ncfn0 s) (ncfl0 s) (nwarn s) (cj s) (cjold s) v (trace s).
Definition set_trace (v : list (event T)) (s : lprob) : lprob :=
  mklprob (lp_ls s) (lp_matj s) (lp_x s) (lp_sqrtn s) (lp_eplifac s) (nje s) (nli s) (ncfl s) (nst0 s) (nni0 s) (ncfn0 s) (ncfl0 s) (nwarn s) (cj s) (cjold s) (cjratio s) v.

(** [IdaNLProblem], src/ida_nls.rs 17-60. *)
Record nlprob : Type := mknlprob {
  yy : list T;  (* ida_yy *)
  yp : list T;  (* ida_yp *)
  yypredict : list T;  (* ida_yypredict *)
  yppredict : list T;  (* ida_yppredict *)
  ewt : list T;  (* ida_ewt *)
  savres : list T;  (* ida_savres *)
  tn : T;  (* ida_tn: current internal time *)
  ss : T;  (* ida_ss *)
  oldnrm : T;  (* ida_oldnrm *)
  toldel : T;  (* ida_toldel *)
  nre : nat;  (* ida_nre: residual calls *)
  nsetups : nat;  (* ida_nsetups *)
  lp : lprob  (* lp: linear problem *)
}.

Definition set_yy (v : list T) (s : nlprob) : nlprob :=
  mknlprob v (yp s) (yypredict s) (yppredict s) (ewt s) (savres s) (tn s) (ss s) (oldnrm s) (toldel s) (nre s) (nsetups s) (lp s).
Definition set_yp (v : list T) (s : nlprob) : nlprob :=
  mknlprob (yy s) v (yypredict s) (yppredict s) (ewt s) (savres s) (tn s) (ss s) (oldnrm s) (toldel s) (nre s) (nsetups s) (lp s).
Definition set_yypredict (v : list T) (s : nlprob) : nlprob :=
  mknlprob (yy s) (yp s) v (yppredict s) (ewt s) (savres s) (tn s) (ss s) (oldnrm s) (toldel s) (nre s) (nsetups s) (lp s).
Definition set_yppredict (v : list T) (s : nlprob) : nlprob :=
  mknlprob (yy s) (yp s) (yypredict s) v (ewt s) (savres s) (tn s) (ss s) (oldnrm s) (toldel s) (nre s) (nsetups s) (lp s).
Definition set_ewt (v : list T) (s : nlprob) : nlprob :=
  mknlprob (yy s) (yp s) (yypredict s) (yppredict s) v (savres s) (tn s) (ss s) (oldnrm s) (toldel s) (nre s) (nsetups s) (lp s).
Definition set_savres (v : list T) (s : nlprob) : nlprob :=
  mknlprob (yy s) (yp s) (yypredict s) (yppredict s) (ewt s) v (tn s) (ss s) (oldnrm s) (toldel s) (nre s) (nsetups s) (lp s).
Definition set_tn (v : T) (s : nlprob) : nlprob :=
  mknlprob (yy s) (yp s) (yypredict s) (yppredict s) (ewt s) (savres s) v (ss s) (oldnrm s) (toldel s) (nre s) (nsetups s) (lp s).
Definition set_ss (v : T) (s : nlprob) : nlprob :=
  mknlprob (yy s) (yp s) (yypredict s) (yppredict s) (ewt s) (savres s) (tn s) v (oldnrm s) (toldel s) (nre s) (nsetups s) (lp s).
Definition set_oldnrm (v : T) (s : nlprob) : nlprob :=
  mknlprob (yy s) (yp s) (yypredict s) (yppredict s) (ewt s) (savres s) (tn s) (ss s) v (toldel s) (nre s) (nsetups s) (lp s).
Definition set_toldel (v : T) (s : nlprob) : nlprob :=
  mknlprob (yy s) (yp s) (yypredict s) (yppredict s) (ewt s) (savres s) (tn s) (ss s) (oldnrm s) v (nre s) (nsetups s) (lp s).
Definition set_nre (v : nat) (s : nlprob) : nlprob :=
  mknlprob (yy s) (yp s) (yypredict s) (yppredict s) (ewt s) (savres s) (tn s) (ss s) (oldnrm s) (toldel s) v (nsetups s) (lp s).
Definition set_nsetups (v : nat) (s : nlprob) : nlprob :=
  mknlprob (yy s) (yp s) (yypredict s) (yppredict s) (ewt s) (savres s) (tn s) (ss s) (oldnrm s) (toldel s) (nre s) v (lp s).
Definition set_lp (v : lprob) (s : nlprob) : nlprob :=
  mknlprob (yy s) (yp s) (yypredict s) (yppredict s) (ewt s) (savres s) (tn s) (ss s) (oldnrm s) (toldel s) (nre s) (nsetups s) v.

(** [Ida] and [IdaCounters], src/lib.rs 69-255. *)
Record ida : Type := mkida {
  setup_done : bool;  (* ida_setup_done *)
  constraints_set : bool;  (* ida_constraints_set *)
  suppressalg : bool;  (* ida_suppressalg *)
  phi : list (list T);  (* ida_phi: divided differences, MXORDP1 = 6 rows *)
  psi : list T;  (* ida_psi *)
  alpha : list T;  (* ida_alpha *)
  beta : list T;  (* ida_beta *)
  sigma : list T;  (* ida_sigma *)
  gamma : list T;  (* ida_gamma *)
  delta : list T;  (* ida_delta *)
  idv : list bool;  (* ida_id *)
  ee : list T;  (* ida_ee *)
  tstop : option T;  (* ida_tstop *)
  kk : nat;  (* ida_kk: current order *)
  kused : nat;  (* ida_kused: order of the last step *)
  knew : nat;  (* ida_knew *)
  phase : nat;  (* ida_phase *)
  ns : nat;  (* ida_ns *)
  hin : T;  (* ida_hin *)
  h0u : T;  (* ida_h0u *)
  hh : T;  (* ida_hh: current step *)
  hused : T;  (* ida_hused: last step *)
  rr : T;  (* ida_rr *)
  tretlast : T;  (* ida_tretlast *)
  cjlast : T;  (* ida_cjlast *)
  eps_newt : T;  (* ida_eps_newt *)
  epcon : T;  (* ida_epcon *)
  maxncf : nat;  (* ida_maxncf *)
  maxnef : nat;  (* ida_maxnef *)
  maxord : nat;  (* ida_maxord *)
  mxstep : nat;  (* ida_mxstep *)
  hmax_inv : T;  (* ida_hmax_inv *)
  nst : nat;  (* counters.ida_nst: steps taken *)
  ncfn : nat;  (* counters.ida_ncfn *)
  netf : nat;  (* counters.ida_netf *)
  nni : nat;  (* counters.ida_nni *)
  cvals : list T;  (* ida_cvals *)
  dvals : list T;  (* ida_dvals *)
  tolsf : T;  (* ida_tolsf *)
  nrtfn : nat;  (* ida_nrtfn *)
  iroots : list T;  (* ida_iroots *)
  rootdir : list nat;  (* ida_rootdir (u8) *)
  tlo : T;  (* ida_tlo *)
  thi : T;  (* ida_thi *)
  trout : T;  (* ida_trout *)
  glo : list T;  (* ida_glo *)
  ghi : list T;  (* ida_ghi *)
  grout : list T;  (* ida_grout *)
  toutc : T;  (* ida_toutc *)
  ttol : T;  (* ida_ttol *)
  taskc : task;  (* ida_taskc *)
  irfnd : bool;  (* ida_irfnd *)
  nge : nat;  (* ida_nge *)
  gactive : list bool;  (* ida_gactive *)
  mxgnull : nat;  (* ida_mxgnull *)
  nls : NSt;  (* nls: nonlinear solver object *)
  nlp : nlprob  (* nlp: nonlinear problem *)
}.

Definition set_setup_done (v : bool) (s : ida) : ida :=
  mkida v (constraints_set s) (suppressalg s) (phi s) (psi s) (alpha s) (beta s) (sigma s) (gamma s) (delta s) (idv s) (ee s) (tstop s) (kk s) (kused s) (knew s) (phase s) (ns s) (hin s) (h0u s) (hh s) (hused s) (rr s) (tretlast s) (cjlast s) (eps_newt s) (epcon s) (maxncf s) (maxnef s) (maxord s) (mxstep s) (hmax_inv s) (nst s) (ncfn s) (netf s) (nni s) (cvals s) (dvals s) (tolsf s) (nrtfn s) (iroots s) (rootdir s) (tlo s) (thi s) (trout s) (glo s) (ghi s) (grout s) (toutc s) (ttol s) (taskc s) (irfnd s) (nge s) (gactive s) (mxgnull s) (nls s) (nlp s).
Definition set_constraints_set (v : bool) (s : ida) : ida :=
  mkida (setup_done s) v (suppressalg s) (phi s) (psi s) (alpha s) (beta s) (sigma s) (gamma s) (delta s) (idv s) (ee s) (tstop s) (kk s) (kused s) (knew s) (phase s) (ns s) (hin s) (h0u s) (hh s) (hused s) (rr s) (tretlast s) (cjlast s) (eps_newt s) (epcon s) (maxncf s) (maxnef s) (maxord s) (mxstep s) (hmax_inv s) (nst s) (ncfn s) (netf s) (nni s) (cvals s) (dvals s) (tolsf s) (nrtfn s) (iroots s) (rootdir s) (tlo s) (thi s) (trout s) (glo s) (ghi s) (grout s) (toutc s) (ttol s) (taskc s) (irfnd s) (nge s) (gactive s) (mxgnull s) (nls s) (nlp s).
Definition set_suppressalg (v : bool) (s : ida) : ida :=
  mkida (setup_done s) (constraints_set s) v (phi s) (psi s) (alpha s) (beta s) (sigma s) (gamma s) (delta s) (idv s) (ee s) (tstop s) (kk s) (kused s) (knew s) (phase s) (ns s) (hin s) (h0u s) (hh s) (hused s) (rr s) (tretlast s) (cjlast s) (eps_newt s) (epcon s) (maxncf s) (maxnef s) (maxord s) (mxstep s) (hmax_inv s) (nst s) (ncfn s) (netf s) (nni s) (cvals s) (dvals s) (tolsf s) (nrtfn s) (iroots s) (rootdir s) (tlo s) (thi s) (trout s) (glo s) (ghi s) (grout s) (toutc s) (ttol s) (taskc s) (irfnd s) (nge s) (gactive s) (mxgnull s) (nls s) (nlp s).
Definition set_phi (v : list (list T)) (s : ida) : ida :=
  mkida (setup_done s) (constraints_set s) (suppressalg s) v (psi s) (alpha s) (beta s) (sigma s) (gamma s) (delta s) (idv s) (ee s) (tstop s) (kk s) (kused s) (knew s) (phase s) (ns s) (hin s) (h0u s) (hh s) (hused s) (rr s) (tretlast s) (cjlast s) (eps_newt s) (epcon s) (maxncf s) (maxnef s) (maxord s) (mxstep s) (hmax_inv s) (nst s) (ncfn s) (netf s) (nni s) (cvals s) (dvals s) (tolsf s) (nrtfn s) (iroots s) (rootdir s) (tlo s) (thi s) (trout s) (glo s) (ghi s) (grout s) (toutc s) (ttol s) (taskc s) (irfnd s) (nge s) (gactive s) (mxgnull s) (nls s) (nlp s).
Definition set_psi (v : list T) (s : ida) : ida :=
  mkida (setup_done s) (constraints_set s) (suppressalg s) (phi s) v (alpha s) (beta s) (sigma s) (gamma s) (delta s) (idv s) (ee s) (tstop s) (kk s) (kused s) (knew s) (phase s) (ns s) (hin s) (h0u s) (hh s) (hused s) (rr s) (tretlast s) (cjlast s) (eps_newt s) (epcon s) (maxncf s) (maxnef s) (maxord s) (mxstep s) (hmax_inv s) (nst s) (ncfn s) (netf s) (nni s) (cvals s) (dvals s) (tolsf s) (nrtfn s) (iroots s) (rootdir s) (tlo s) (thi s) (trout s) (glo s) (ghi s) (grout s) (toutc s) (ttol s) (taskc s) (irfnd s) (nge s) (gactive s) (mxgnull s) (nls s) (nlp s).
Definition set_alpha (v : list T) (s : ida) : ida :=
  mkida (setup_done s) (constraints_set s) (suppressalg s) (phi s) (psi s) v (beta s) (sigma s) (gamma s) (delta s) (idv s) (ee s) (tstop s) (kk s) (kused s) (knew s) (phase s) (ns s) (hin s) (h0u s) (hh s) (hused s) (rr s) (tretlast s) (cjlast s) (eps_newt s) (epcon s) (maxncf s) (maxnef s) (maxord s) (mxstep s) (hmax_inv s) (nst s) (ncfn s) (netf s) (nni s) (cvals s) (dvals s) (tolsf s) (nrtfn s) (iroots s) (rootdir s) (tlo s) (thi s) (trout s) (glo s) (ghi s) (grout s) (toutc s) (ttol s) (taskc s) (irfnd s) (nge s) (gactive s) (mxgnull s) (nls s) (nlp s).
Definition set_beta (v : list T) (s : ida) : ida :=
  mkida (setup_done s) (constraints_set s) (suppressalg s) (phi s) (psi s) (alpha s) v (sigma s) (gamma s) (delta s) (idv s) (ee s) (tstop s) (kk s) (kused s) (knew s) (phase s) (ns s) (hin s) (h0u s) (hh s) (hused s) (rr s) (tretlast s) (cjlast s) (eps_newt s) (epcon s) (maxncf s) (maxnef s) (maxord s) (mxstep s) (hmax_inv s) (nst s) (ncfn s) (netf s) (nni s) (cvals s) (dvals s) (tolsf s) (nrtfn s) (iroots s) (rootdir s) (tlo s) (thi s) (trout s) (glo s) (ghi s) (grout s) (toutc s) (ttol s) (taskc s) (irfnd s) (nge s) (gactive s) (mxgnull s) (nls s) (nlp s).
Definition set_sigma (v : list T) (s : ida) : ida :=
  mkida (setup_done s) (constraints_set s) (suppressalg s) (phi s) (psi s) (alpha s) (beta s) v (gamma s) (delta s) (idv s) (ee s) (tstop s) (kk s) (kused s) (knew s) (phase s) (ns s) (hin s) (h0u s) (hh s) (hused s) (rr s) (tretlast s) (cjlast s) (eps_newt s) (epcon s) (maxncf s) (maxnef s) (maxord s) (mxstep s) (hmax_inv s) (nst s) (ncfn s) (netf s) (nni s) (cvals s) (dvals s) (tolsf s) (nrtfn s) (iroots s) (rootdir s) (tlo s) (thi s) (trout s) (glo s) (ghi s) (grout s) (toutc s) (ttol s) (taskc s) (irfnd s) (nge s) (gactive s) (mxgnull s) (nls s) (nlp s).
Definition set_gamma (v : list T) (s : ida) : ida :=
  mkida (setup_done s) (constraints_set s) (suppressalg s) (phi s) (psi s) (alpha s) (beta s) (sigma s) v (delta s) (idv s) (ee s) (tstop s) (kk s) (kused s) (knew s) (phase s) (ns s) (hin s) (h0u s) (hh s) (hused s) (rr s) (tretlast s) (cjlast s) (eps_newt s) (epcon s) (maxncf s) (maxnef s) (maxord s) (mxstep s) (hmax_inv s) (nst s) (ncfn s) (netf s) (nni s) (cvals s) (dvals s) (tolsf s) (nrtfn s) (iroots s) (rootdir s) (tlo s) (thi s) (trout s) (glo s) (ghi s) (grout s) (toutc s) (ttol s) (taskc s) (irfnd s) (nge s) (gactive s) (mxgnull s) (nls s) (nlp s).
Definition set_delta (v : list T) (s : ida) : ida :=
  mkida (setup_done s) (constraints_set s) (suppressalg s) (phi s) (psi s) (alpha s) (beta s) (sigma s) (gamma s) v (idv s) (ee s) (tstop s) (kk s) (kused s) (knew s) (phase s) (ns s) (hin s) (h0u s) (hh s) (hused s) (rr s) (tretlast s) (cjlast s) (eps_newt s) (epcon s) (maxncf s) (maxnef s) (maxord s) (mxstep s) (hmax_inv s) (nst s) (ncfn s) (netf s) (nni s) (cvals s) (dvals s) (tolsf s) (nrtfn s) (iroots s) (rootdir s) (tlo s) (thi s) (trout s) (glo s) (ghi s) (grout s) (toutc s) (ttol s) (taskc s) (irfnd s) (nge s) (gactive s) (mxgnull s) (nls s) (nlp s).
Definition set_idv (v : list bool) (s : ida) : ida :=
  mkida (setup_done s) (constraints_set s) (suppressalg s) (phi s) (psi s) (alpha s) (beta s) (sigma s) (gamma s) (delta s) v (ee s) (tstop s) (kk s) (kused s) (knew s) (phase s) (ns s) (hin s) (h0u s) (hh s) (hused s) (rr s) (tretlast s) (cjlast s) (eps_newt s) (epcon s) (maxncf s) (maxnef s) (maxord s) (mxstep s) (hmax_inv s) (nst s) (ncfn s) (netf s) (nni s) (cvals s) (dvals s) (tolsf s) (nrtfn s) (iroots s) (rootdir s) (tlo s) (thi s) (trout s) (glo s) (ghi s) (grout s) (toutc s) (ttol s) (taskc s) (irfnd s) (nge s) (gactive s) (mxgnull s) (nls s) (nlp s).
Definition set_ee (v : list T) (s : ida) : ida :=
  mkida (setup_done s) (constraints_set s) (suppressalg s) (phi s) (psi s) (alpha s) (beta s) (sigma s) (gamma s) (delta s) (idv s) v (tstop s) (kk s) (kused s) (knew s) (phase s) (ns s) (hin s) (h0u s) (hh s) (hused s) (rr s) (tretlast s) (cjlast s) (eps_newt s) (epcon s) (maxncf s) (maxnef s) (maxord s) (mxstep s) (hmax_inv s) (nst s) (ncfn s) (netf s) (nni s) (cvals s) (dvals s) (tolsf s) (nrtfn s) (iroots s) (rootdir s) (tlo s) (thi s) (trout s) (glo s) (ghi s) (grout s) (toutc s) (ttol s) (taskc s) (irfnd s) (nge s) (gactive s) (mxgnull s) (nls s) (nlp s).
Definition set_tstop (v : option T) (s : ida) : ida :=
  mkida (setup_done s) (constraints_set s) (suppressalg s) (phi s) (psi s) (alpha s) (beta s) (sigma s) (gamma s) (delta s) (idv s) (ee s) v (kk s) (kused s) (knew s) (phase s) (ns s) (hin s) (h0u s) (hh s) (hused s) (rr s) (tretlast s) (cjlast s) (eps_newt s) (epcon s) (maxncf s) (maxnef s) (maxord s) (mxstep s) (hmax_inv s) (nst s) (ncfn s) (netf s) (nni s) (cvals s) (dvals s) (tolsf s) (nrtfn s) (iroots s) (rootdir s) (tlo s) (thi s) (trout s) (glo s) (ghi s) (grout s) (toutc s) (ttol s) (taskc s) (irfnd s) (nge s) (gactive s) (mxgnull s) (nls s) (nlp s).
Definition set_kk (v : nat) (s : ida) : ida :=
  mkida (setup_done s) (constraints_set s) (suppressalg s) (phi s) (psi s) (alpha s) (beta s) (sigma s) (gamma s) (delta s) (idv s) (ee s) (tstop s) v (kused s) (knew s) (phase s) (ns s) (hin s) (h0u s) (hh s) (hused s) (rr s) (tretlast s) (cjlast s) (eps_newt s) (epcon s) (maxncf s) (maxnef s) (maxord s) (mxstep s) (hmax_inv s) (nst s) (ncfn s) (netf s) (nni s) (cvals s) (dvals s) (tolsf s) (nrtfn s) (iroots s) (rootdir s) (tlo s) (thi s) (trout s) (glo s) (ghi s) (grout s) (toutc s) (ttol s) (taskc s) (irfnd s) (nge s) (gactive s) (mxgnull s) (nls s) (nlp s).
Definition set_kused (v : nat) (s : ida) : ida :=
  mkida (setup_done s) (constraints_set s) (suppressalg s) (phi s) (psi s) (alpha s) (beta s) (sigma s) (gamma s) (delta s) (idv s) (ee s) (tstop s) (kk s) v (knew s) (phase s) (ns s) (hin s) (h0u s) (hh s) (hused s) (rr s) (tretlast s) (cjlast s) (eps_newt s) (epcon s) (maxncf s) (maxnef s) (maxord s) (mxstep s) (hmax_inv s) (nst s) (ncfn s) (netf s) (nni s) (cvals s) (dvals s) (tolsf s) (nrtfn s) (iroots s) (rootdir s) (tlo s) (thi s) (trout s) (glo s) (ghi s) (grout s) (toutc s) (ttol s) (taskc s) (irfnd s) (nge s) (gactive s) (mxgnull s) (nls s) (nlp s).
Definition set_knew (v : nat) (s : ida) : ida :=
  mkida (setup_done s) (constraints_set s) (suppressalg s) (phi s) (psi s) (alpha s) (beta s) (sigma s) (gamma s) (delta s) (idv s) (ee s) (tstop s) (kk s) (kused s) v (phase s) (ns s) (hin s) (h0u s) (hh s) (hused s) (rr s) (tretlast s) (cjlast s) (eps_newt s) (epcon s) (maxncf s) (maxnef s) (maxord s) (mxstep s) (hmax_inv s) (nst s) (ncfn s) (netf s) (nni s) (cvals s) (dvals s) (tolsf s) (nrtfn s) (iroots s) (rootdir s) (tlo s) (thi s) (trout s) (glo s) (ghi s) (grout s) (toutc s) (ttol s) (taskc s) (irfnd s) (nge s) (gactive s) (mxgnull s) (nls s) (nlp s).
Definition set_phase (v : nat) (s : ida) : ida :=
  mkida (setup_done s) (constraints_set s) (suppressalg s) (phi s) (psi s) (alpha s) (beta s) (sigma s) (gamma s) (delta s) (idv s) (ee s) (tstop s) (kk s) (kused s) (knew s) v (ns s) (hin s) (h0u s) (hh s) (hused s) (rr s) (tretlast s) (cjlast s) (eps_newt s) (epcon s) (maxncf s) (maxnef s) (maxord s) (mxstep s) (hmax_inv s) (nst s) (ncfn s) (netf s) (nni s) (cvals s) (dvals s) (tolsf s) (nrtfn s) (iroots s) (rootdir s) (tlo s) (thi s) (trout s) (glo s) (ghi s) (grout s) (toutc s) (ttol s) (taskc s) (irfnd s) (nge s) (gactive s) (mxgnull s) (nls s) (nlp s).
Definition set_ns (v : nat) (s : ida) : ida :=
  mkida (setup_done s) (constraints_set s) (suppressalg s) (phi s) (psi s) (alpha s) (beta s) (sigma s) (gamma s) (delta s) (idv s) (ee s) (tstop s) (kk s) (kused s) (knew s) (phase s) v (hin s) (h0u s) (hh s) (hused s) (rr s) (tretlast s) (cjlast s) (eps_newt s) (epcon s) (maxncf s) (maxnef s) (maxord s) (mxstep s) (hmax_inv s) (nst s) (ncfn s) (netf s) (nni s) (cvals s) (dvals s) (tolsf s) (nrtfn s) (iroots s) (rootdir s) (tlo s) (thi s) (trout s) (glo s) (ghi s) (grout s) (toutc s) (ttol s) (taskc s) (irfnd s) (nge s) (gactive s) (mxgnull s) (nls s) (nlp s).
Definition set_hin (v : T) (s : ida) : ida :=
  mkida (setup_done s) (constraints_set s) (suppressalg s) (phi s) (psi s) (alpha s) (beta s) (sigma s) (gamma s) (delta s) (idv s) (ee s) (tstop s) (kk s) (kused s) (knew s) (phase s) (ns s) v (h0u s) (hh s) (hused s) (rr s) (tretlast s) (cjlast s) (eps_newt s) (epcon s) (maxncf s) (maxnef s) (maxord s) (mxstep s) (hmax_inv s) (nst s) (ncfn s) (netf s) (nni s) (cvals s) (dvals s) (tolsf s) (nrtfn s) (iroots s) (rootdir s) (tlo s) (thi s) (trout s) (glo s) (ghi s) (grout s) (toutc s) (ttol s) (taskc s) (irfnd s) (nge s) (gactive s) (mxgnull s) (nls s) (nlp s).
Definition set_h0u (v : T) (s : ida) : ida :=
  mkida (setup_done s) (constraints_set s) (suppressalg s) (phi s) (psi s) (alpha s) (beta s) (sigma s) (gamma s) (delta s) (idv s) (ee s) (tstop s) (kk s) (kused s) (knew s) (phase s) (ns s) (hin s) v (hh s) (hused s) (rr s) (tretlast s) (cjlast s) (eps_newt s) (epcon s) (maxncf s) (maxnef s) (maxord s) (mxstep s) (hmax_inv s) (nst s) (ncfn s) (netf s) (nni s) (cvals s) (dvals s) (tolsf s) (nrtfn s) (iroots s) (rootdir s) (tlo s) (thi s) (trout s) (glo s) (ghi s) (grout s) (toutc s) (ttol s) (taskc s) (irfnd s) (nge s) (gactive s) (mxgnull s) (nls s) (nlp s).
Definition set_hh (v : T) (s : ida) : ida :=
  mkida (setup_done s) (constraints_set s) (suppressalg s) (phi s) (psi s) (alpha s) (beta s) (sigma s) (gamma s) (delta s) (idv s) (ee s) (tstop s) (kk s) (kused s) (knew s) (phase s) (ns s) (hin s) (h0u s) v (hused s) (rr s) (tretlast s) (cjlast s) (eps_newt s) (epcon s) (maxncf s) (maxnef s) (maxord s) (mxstep s) (hmax_inv s) (nst s) (ncfn s) (netf s) (nni s) (cvals s) (dvals s) (tolsf s) (nrtfn s) (iroots s) (rootdir s) (tlo s) (thi s) (trout s) (glo s) (ghi s) (grout s) (toutc s) (ttol s) (taskc s) (irfnd s) (nge s) (gactive s) (mxgnull s) (nls s) (nlp s).
Definition set_hused (v : T) (s : ida) : ida :=
  mkida (setup_done s) (constraints_set s) (suppressalg s) (phi s) (psi s) (alpha s) (beta s) (sigma s) (gamma s) (delta s) (idv s) (ee s) (tstop s) (kk s) (kused s) (knew s) (phase s) (ns s) (hin s) (h0u s) (hh s) v (rr s) (tretlast s) (cjlast s) (eps_newt s) (epcon s) (maxncf s) (maxnef s) (maxord s) (mxstep s) (hmax_inv s) (nst s) (ncfn s) (netf s) (nni s) (cvals s) (dvals s) (tolsf s) (nrtfn s) (iroots s) (rootdir s) (tlo s) (thi s) (trout s) (glo s) (ghi s) (grout s) (toutc s) (ttol s) (taskc s) (irfnd s) (nge s) (gactive s) (mxgnull s) (nls s) (nlp s).
Definition set_rr (v : T) (s : ida) : ida :=
  mkida (setup_done s) (constraints_set s) (suppressalg s) (phi s) (psi s) (alpha s) (beta s) (sigma s) (gamma s) (delta s) (idv s) (ee s) (tstop s) (kk s) (kused s) (knew s) (phase s) (ns s) (hin s) (h0u s) (hh s) (hused s) v (tretlast s) (cjlast s) (eps_newt s) (epcon s) (maxncf s) (maxnef s) (maxord s) (mxstep s) (hmax_inv s) (nst s) (ncfn s) (netf s) (nni s) (cvals s) (dvals s) (tolsf s) (nrtfn s) (iroots s) (rootdir s) (tlo s) (thi s) (trout s) (glo s) (ghi s) (grout s) (toutc s) (ttol s) (taskc s) (irfnd s) (nge s) (gactive s) (mxgnull s) (nls s) (nlp s).
Definition set_tretlast (v : T) (s : ida) : ida :=
  mkida (setup_done s) (constraints_set s) (suppressalg s) (phi s) (psi s) (alpha s) (beta s) (sigma s) (gamma s) (delta s) (idv s) (ee s) (tstop s) (kk s) (kused s) (knew s) (phase s) (ns s) (hin s) (h0u s) (hh s) (hused s) (rr s) v (cjlast s) (eps_newt s) (epcon s) (maxncf s) (maxnef s) (maxord s) (mxstep s) (hmax_inv s) (nst s) (ncfn s) (netf s) (nni s) (cvals s) (dvals s) (tolsf s) (nrtfn s) (iroots s) (rootdir s) (tlo s) (thi s) (trout s) (glo s) (ghi s) (grout s) (toutc s) (ttol s) (taskc s) (irfnd s) (nge s) (gactive s) (mxgnull s) (nls s) (nlp s).
Definition set_cjlast (v : T) (s : ida) : ida :=
  mkida (setup_done s) (constraints_set s) (suppressalg s) (phi s) (psi s) (alpha s) (beta s) (sigma s) (gamma s) (delta s) (idv s) (ee s) (tstop s) (kk s) (kused s) (knew s) (phase s) (ns s) (hin s) (h0u s) (hh s) (hused s) (rr s) (tretlast s) v (eps_newt s) (epcon s) (maxncf s) (maxnef s) (maxord s) (mxstep s) (hmax_inv s) (nst s) (ncfn s) (netf s) (nni s) (cvals s) (dvals s) (tolsf s) (nrtfn s) (iroots s) (rootdir s) (tlo s) (thi s) (trout s) (glo s) (ghi s) (grout s) (toutc s) (ttol s) (taskc s) (irfnd s) (nge s) (gactive s) (mxgnull s) (nls s) (nlp s).
Definition set_eps_newt (v : T) (s : ida) : ida :=
  mkida (setup_done s) (constraints_set s) (suppressalg s) (phi s) (psi s) (alpha s) (beta s) (sigma s) (gamma s) (delta s) (idv s) (ee s) (tstop s) (kk s) (kused s) (knew s) (phase s) (ns s) (hin s) (h0u s) (hh s) (hused s) (rr s) (tretlast s) (cjlast s) v (epcon s) (maxncf s) (maxnef s) (maxord s) (mxstep s) (hmax_inv s) (nst s) (ncfn s) (netf s) (nni s) (cvals s) (dvals s) (tolsf s) (nrtfn s) (iroots s) (rootdir s) (tlo s) (thi s) (trout s) (glo s) (ghi s) (grout s) (toutc s) (ttol s) (taskc s) (irfnd s) (nge s) (gactive s) (mxgnull s) (nls s) (nlp s).
Definition set_epcon (v : T) (s : ida) : ida :=
  mkida (setup_done s) (constraints_set s) (suppressalg s) (phi s) (psi s) (alpha s) (beta s) (sigma s) (gamma s) (delta s) (idv s) (ee s) (tstop s) (kk s) (kused s) (knew s) (phase s) (ns s) (hin s) (h0u s) (hh s) (hused s) (rr s) (tretlast s) (cjlast s) (eps_newt s) v (maxncf s) (maxnef s) (maxord s) (mxstep s) (hmax_inv s) (nst s) (ncfn s) (netf s) (nni s) (cvals s) (dvals s) (tolsf s) (nrtfn s) (iroots s) (rootdir s) (tlo s) (thi s) (trout s) (glo s) (ghi s) (grout s) (toutc s) (ttol s) (taskc s) (irfnd s) (nge s) (gactive s) (mxgnull s) (nls s) (nlp s).
Definition set_maxncf (v : nat) (s : ida) : ida :=
  mkida (setup_done s) (constraints_set s) (suppressalg s) (phi s) (psi s) (alpha s) (beta s) (sigma s) (gamma s) (delta s) (idv s) (ee s) (tstop s) (kk s) (kused s) (knew s) (phase s) (ns s) (hin s) (h0u s) (hh s) (hused s) (rr s) (tretlast s) (cjlast s) (eps_newt s) (epcon s) v (maxnef s) (maxord s) (mxstep s) (hmax_inv s) (nst s) (ncfn s) (netf s) (nni s) (cvals s) (dvals s) (tolsf s) (nrtfn s) (iroots s) (rootdir s) (tlo s) (thi s) (trout s) (glo s) (ghi s) (grout s) (toutc s) (ttol s) (taskc s) (irfnd s) (nge s) (gactive s) (mxgnull s) (nls s) (nlp s).
Definition set_maxnef (v : nat) (s : ida) : ida :=
  mkida (setup_done s) (constraints_set s) (suppressalg s) (phi s) (psi s) (alpha s) (beta s) (sigma s) (gamma s) (delta s) (idv s) (ee s) (tstop s) (kk s) (kused s) (knew s) (phase s) (ns s) (hin s) (h0u s) (hh s) (hused s) (rr s) (tretlast s) (cjlast s) (eps_newt s) (epcon s) (maxncf s) v (maxord s) (mxstep s) (hmax_inv s) (nst s) (ncfn s) (netf s) (nni s) (cvals s) (dvals s) (tolsf s) (nrtfn s) (iroots s) (rootdir s) (tlo s) (thi s) (trout s) (glo s) (ghi s) (grout s) (toutc s) (ttol s) (taskc s) (irfnd s) (nge s) (gactive s) (mxgnull s) (nls s) (nlp s).
Definition set_maxord (v : nat) (s : ida) : ida :=
  mkida (setup_done s) (constraints_set s) (suppressalg s) (phi s) (psi s) (alpha s) (beta s) (sigma s) (gamma s) (delta s) (idv s) (ee s) (tstop s) (kk s) (kused s) (knew s) (phase s) (ns s) (hin s) (h0u s) (hh s) (hused s) (rr s) (tretlast s) (cjlast s) (eps_newt s) (epcon s) (maxncf s) (maxnef s) v (mxstep s) (hmax_inv s) (nst s) (ncfn s) (netf s) (nni s) (cvals s) (dvals s) (tolsf s) (nrtfn s) (iroots s) (rootdir s) (tlo s) (thi s) (trout s) (glo s) (ghi s) (grout s) (toutc s) (ttol s) (taskc s) (irfnd s) (nge s) (gactive s) (mxgnull s) (nls s) (nlp s).
Definition set_mxstep (v : nat) (s : ida) : ida :=
  mkida (setup_done s) (constraints_set s) (suppressalg s) (phi s) (psi s) (alpha s) (beta s) (sigma s) (gamma s) (delta s) (idv s) (ee s) (tstop s) (kk s) (kused s) (knew s) (phase s) (ns s) (hin s) (h0u s) (hh s) (hused s) (rr s) (tretlast s) (cjlast s) (eps_newt s) (epcon s) (maxncf s) (maxnef s) (maxord s) v (hmax_inv s) (nst s) (ncfn s) (netf s) (nni s) (cvals s) (dvals s) (tolsf s) (nrtfn s) (iroots s) (rootdir s) (tlo s) (thi s) (trout s) (glo s) (ghi s) (grout s) (toutc s) (ttol s) (taskc s) (irfnd s) (nge s) (gactive s) (mxgnull s) (nls s) (nlp s).
Definition set_hmax_inv (v : T) (s : ida) : ida :=
  mkida (setup_done s) (constraints_set s) (suppressalg s) (phi s) (psi s) (alpha s) (beta s) (sigma s) (gamma s) (delta s) (idv s) (ee s) (tstop s) (kk s) (kused s) (knew s) (phase s) (ns s) (hin s) (h0u s) (hh s) (hused s) (rr s) (tretlast s) (cjlast s) (eps_newt s) (epcon s) (maxncf s) (maxnef s) (maxord s) (mxstep s) v (nst s) (ncfn s) (netf s) (nni s) (cvals s) (dvals s) (tolsf s) (nrtfn s) (iroots s) (rootdir s) (tlo s) (thi s) (trout s) (glo s) (ghi s) (grout s) (toutc s) (ttol s) (taskc s) (irfnd s) (nge s) (gactive s) (mxgnull s) (nls s) (nlp s).
Definition set_nst (v : nat) (s : ida) : ida :=
  mkida (setup_done s) (constraints_set s) (suppressalg s) (phi s) (psi s) (alpha s) (beta s) (sigma s) (gamma s) (delta s) (idv s) (ee s) (tstop s) (kk s) (kused s) (knew s) (phase s) (ns s) (hin s) (h0u s) (hh s) (hused s) (rr s) (tretlast s) (cjlast s) (eps_newt s) (epcon s) (maxncf s) (maxnef s) (maxord s) (mxstep s) (hmax_inv s) v (ncfn s) (netf s) (nni s) (cvals s) (dvals s) (tolsf s) (nrtfn s) (iroots s) (rootdir s) (tlo s) (thi s) (trout s) (glo s) (ghi s) (grout s) (toutc s) (ttol s) (taskc s) (irfnd s) (nge s) (gactive s) (mxgnull s) (nls s) (nlp s).
Definition set_ncfn (v : nat) (s : ida) : ida :=
  mkida (setup_done s) (constraints_set s) (suppressalg s) (phi s) (psi s) (alpha s) (beta s) (sigma s) (gamma s) (delta s) (idv s) (ee s) (tstop s) (kk s) (kused s) (knew s) (phase s) (ns s) (hin s) (h0u s) (hh s) (hused s) (rr s) (tretlast s) (cjlast s) (eps_newt s) (epcon s) (maxncf s) (maxnef s) (maxord s) (mxstep s) (hmax_inv s) (nst s) v (netf s) (nni s) (cvals s) (dvals s) (tolsf s) (nrtfn s) (iroots s) (rootdir s) (tlo s) (thi s) (trout s) (glo s) (ghi s) (grout s) (toutc s) (ttol s) (taskc s) (irfnd s) (nge s) (gactive s) (mxgnull s) (nls s) (nlp s).
Definition set_netf (v : nat) (s : ida) : ida :=
  mkida (setup_done s) (constraints_set s) (suppressalg s) (phi s) (psi s) (alpha s) (beta s) (sigma s) (gamma s) (delta s) (idv s) (ee s) (tstop s) (kk s) (kused s) (knew s) (phase s) (ns s) (hin s) (h0u s) (hh s) (hused s) (rr s) (tretlast s) (cjlast s) (eps_newt s) (epcon s) (maxncf s) (maxnef s) (maxord s) (mxstep s) (hmax_inv s) (nst s) (ncfn s) v (nni s) (cvals s) (dvals s) (tolsf s) (nrtfn s) (iroots s) (rootdir s) (tlo s) (thi s) (trout s) (glo s) (ghi s) (grout s) (toutc s) (ttol s) (taskc s) (irfnd s) (nge s) (gactive s) (mxgnull s) (nls s) (nlp s).
Definition set_nni (v : nat) (s : ida) : ida :=
  mkida (setup_done s) (constraints_set s) (suppressalg s) (phi s) (psi s) (alpha s) (beta s) (sigma s) (gamma s) (delta s) (idv s) (ee s) (tstop s) (kk s) (kused s) (knew s) (phase s) (ns s) (hin s) (h0u s) (hh s) (hused s) (rr s) (tretlast s) (cjlast s) (eps_newt s) (epcon s) (maxncf s) (maxnef s) (maxord s) (mxstep s) (hmax_inv s) (nst s) (ncfn s) (netf s) v (cvals s) (dvals s) (tolsf s) (nrtfn s) (iroots s) (rootdir s) (tlo s) (thi s) (trout s) (glo s) (ghi s) (grout s) (toutc s) (ttol s) (taskc s) (irfnd s) (nge s) (gactive s) (mxgnull s) (nls s) (nlp s).
Definition set_cvals (v : list T) (s : ida) : ida :=
  mkida (setup_done s) (constraints_set s) (suppressalg s) (phi s) (psi s) (alpha s) (beta s) (sigma s) (gamma s) (delta s) (idv s) (ee s) (tstop s) (kk s) (kused s) (knew s) (phase s) (ns s) (hin s) (h0u s) (hh s) (hused s) (rr s) (tretlast s) (cjlast s) (eps_newt s) (epcon s) (maxncf s) (maxnef s) (maxord s) (mxstep s) (hmax_inv s) (nst s) (ncfn s) (netf s) (nni s) v (dvals s) (tolsf s) (nrtfn s) (iroots s) (rootdir s) (tlo s) (thi s) (trout s) (glo s) (ghi s) (grout s) (toutc s) (ttol s) (taskc s) (irfnd s) (nge s) (gactive s) (mxgnull s) (nls s) (nlp s).
Definition set_dvals (v : list T) (s : ida) : ida :=
  mkida (setup_done s) (constraints_set s) (suppressalg s) (phi s) (psi s) (alpha s) (beta s) (sigma s) (gamma s) (delta s) (idv s) (ee s) (tstop s) (kk s) (kused s) (knew s) (phase s) (ns s) (hin s) (h0u s) (hh s) (hused s) (rr s) (tretlast s) (cjlast s) (eps_newt s) (epcon s) (maxncf s) (maxnef s) (maxord s) (mxstep s) (hmax_inv s) (nst s) (ncfn s) (netf s) (nni s) (cvals s) v (tolsf s) (nrtfn s) (iroots s) (rootdir s) (tlo s) (thi s) (trout s) (glo s) (ghi s) (grout s) (toutc s) (ttol s) (taskc s) (irfnd s) (nge s) (gactive s) (mxgnull s) (nls s) (nlp s).
Definition set_tolsf (v : T) (s : ida) : ida :=
  mkida (setup_done s) (constraints_set s) (suppressalg s) (phi s) (psi s) (alpha s) (beta s) (sigma s) (gamma s) (delta s) (idv s) (ee s) (tstop s) (kk s) (kused s) (knew s) (phase s) (ns s) (hin s) (h0u s) (hh s) (hused s) (rr s) (tretlast s) (cjlast s) (eps_newt s) (epcon s) (maxncf s) (maxnef s) (maxord s) (mxstep s) (hmax_inv s) (nst s) (ncfn s) (netf s) (nni s) (cvals s) (dvals s) v (nrtfn s) (iroots s) (rootdir s) (tlo s) (thi s) (trout s) (glo s) (ghi s) (grout s) (toutc s) (ttol s) (taskc s) (irfnd s) (nge s) (gactive s) (mxgnull s) (nls s) (nlp s).
Definition set_nrtfn (v : nat) (s : ida) : ida :=
  mkida (setup_done s) (constraints_set s) (suppressalg s) (phi s) (psi s) (alpha s) (beta s) (sigma s) (gamma s) (delta s) (idv s) (ee s) (tstop s) (kk s) (kused s) (knew s) (phase s) (ns s) (hin s) (h0u s) (hh s) (hused s) (rr s) (tretlast s) (cjlast s) (eps_newt s) (epcon s) (maxncf s) (maxnef s) (maxord s) (mxstep s) (hmax_inv s) (nst s) (ncfn s) (netf s) (nni s) (cvals s) (dvals s) (tolsf s) v (iroots s) (rootdir s) (tlo s) (thi s) (trout s) (glo s) (ghi s) (grout s) (toutc s) (ttol s) (taskc s) (irfnd s) (nge s) (gactive s) (mxgnull s) (nls s) (nlp s).
Definition set_iroots (v : list T) (s : ida) : ida :=
  mkida (setup_done s) (constraints_set s) (suppressalg s) (phi s) (psi s) (alpha s) (beta s) (sigma s) (gamma s) (delta s) (idv s) (ee s) (tstop s) (kk s) (kused s) (knew s) (phase s) (ns s) (hin s) (h0u s) (hh s) (hused s) (rr s) (tretlast s) (cjlast s) (eps_newt s) (epcon s) (maxncf s) (maxnef s) (maxord s) (mxstep s) (hmax_inv s) (nst s) (ncfn s) (netf s) (nni s) (cvals s) (dvals s) (tolsf s) (nrtfn s) v (rootdir s) (tlo s) (thi s) (trout s) (glo s) (ghi s) (grout s) (toutc s) (ttol s) (taskc s) (irfnd s) (nge s) (gactive s) (mxgnull s) (nls s) (nlp s).
Definition set_rootdir (v : list nat) (s : ida) : ida :=
  mkida (setup_done s) (constraints_set s) (suppressalg s) (phi s) (psi s) (alpha s) (beta s) (sigma s) (gamma s) (delta s) (idv s) (ee s) (tstop s) (kk s) (kused s) (knew s) (phase s) (ns s) (hin s) (h0u s) (hh s) (hused s) (rr s) (tretlast s) (cjlast s) (eps_newt s) (epcon s) (maxncf s) (maxnef s) (maxord s) (mxstep s) (hmax_inv s) (nst s) (ncfn s) (netf s) (nni s) (cvals s) (dvals s) (tolsf s) (nrtfn s) (iroots s) v (tlo s) (thi s) (trout s) (glo s) (ghi s) (grout s) (toutc s) (ttol s) (taskc s) (irfnd s) (nge s) (gactive s) (mxgnull s) (nls s) (nlp s).
Definition set_tlo (v : T) (s : ida) : ida :=
  mkida (setup_done s) (constraints_set s) (suppressalg s) (phi s) (psi s) (alpha s) (beta s) (sigma s) (gamma s) (delta s) (idv s) (ee s) (tstop s) (kk s) (kused s) (knew s) (phase s) (ns s) (hin s) (h0u s) (hh s) (hused s) (rr s) (tretlast s) (cjlast s) (eps_newt s) (epcon s) (maxncf s) (maxnef s) (maxord s) (mxstep s) (hmax_inv s) (nst s) (ncfn s) (netf s) (nni s) (cvals s) (dvals s) (tolsf s) (nrtfn s) (iroots s) (rootdir s) v (thi s) (trout s) (glo s) (ghi s) (grout s) (toutc s) (ttol s) (taskc s) (irfnd s) (nge s) (gactive s) (mxgnull s) (nls s) (nlp s).
Definition set_thi (v : T) (s : ida) : ida :=
  mkida (setup_done s) (constraints_set s) (suppressalg s) (phi s) (psi s) (alpha s) (beta s) (sigma s) (gamma s) (delta s) (idv s) (ee s) (tstop s) (kk s) (kused s) (knew s) (phase s) (ns s) (hin s) (h0u s) (hh s) (hused s) (rr s) (tretlast s) (cjlast s) (eps_newt s) (epcon s) (maxncf s) (maxnef s) (maxord s) (mxstep s) (hmax_inv s) (nst s) (ncfn s) (netf s) (nni s) (cvals s) (dvals s) (tolsf s) (nrtfn s) (iroots s) (rootdir s) (tlo s) v (trout s) (glo s) (ghi s) (grout s) (toutc s) (ttol s) (taskc s) (irfnd s) (nge s) (gactive s) (mxgnull s) (nls s) (nlp s).
Definition set_trout (v : T) (s : ida) : ida :=
  mkida (setup_done s) (constraints_set s) (suppressalg s) (phi s) (psi s) (alpha s) (beta s) (sigma s) (gamma s) (delta s) (idv s) (ee s) (tstop s) (kk s) (kused s) (knew s) (phase s) (ns s) (hin s) (h0u s) (hh s) (hused s) (rr s) (tretlast s) (cjlast s) (eps_newt s) (epcon s) (maxncf s) (maxnef s) (maxord s) (mxstep s) (hmax_inv s) (nst s) (ncfn s) (netf s) (nni s) (cvals s) (dvals s) (tolsf s) (nrtfn s) (iroots s) (rootdir s) (tlo s) (thi s) v (glo s) (ghi s) (grout s) (toutc s) (ttol s) (taskc s) (irfnd s) (nge s) (gactive s) (mxgnull s) (nls s) (nlp s).
Definition set_glo (v : list T) (s : ida) : ida :=
  mkida (setup_done s) (constraints_set s) (suppressalg s) (phi s) (psi s) (alpha s) (beta s) (sigma s) (gamma s) (delta s) (idv s) (ee s) (tstop s) (kk s) (kused s) (knew s) (phase s) (ns s) (hin s) (h0u s) (hh s) (hused s) (rr s) (tretlast s) (cjlast s) (eps_newt s) (epcon s) (maxncf s) (maxnef s) (maxord s) (mxstep s) (hmax_inv s) (nst s) (ncfn s) (netf s) (nni s) (cvals s) (dvals s) (tolsf s) (nrtfn s) (iroots s) (rootdir s) (tlo s) (thi s) (trout s) v (ghi s) (grout s) (toutc s) (ttol s) (taskc s) (irfnd s) (nge s) (gactive s) (mxgnull s) (nls s) (nlp s).
Definition set_ghi (v : list T) (s : ida) : ida :=
  mkida (setup_done s) (constraints_set s) (suppressalg s) (phi s) (psi s) (alpha s) (beta s) (sigma s) (gamma s) (delta s) (idv s) (ee s) (tstop s) (kk s) (kused s) (knew s) (phase s) (ns s) (hin s) (h0u s) (hh s) (hused s) (rr s) (tretlast s) (cjlast s) (eps_newt s) (epcon s) (maxncf s) (maxnef s) (maxord s) (mxstep s) (hmax_inv s) (nst s) (ncfn s) (netf s) (nni s) (cvals s) (dvals s) (tolsf s) (nrtfn s) (iroots s) (rootdir s) (tlo s) (thi s) (trout s) (glo s) v (grout s) (toutc s) (ttol s) (taskc s) (irfnd s) (nge s) (gactive s) (mxgnull s) (nls s) (nlp s).
Definition set_grout (v : list T) (s : ida) : ida :=
  mkida (setup_done s) (constraints_set s) (suppressalg s) (phi s) (psi s) (alpha s) (beta s) (sigma s) (gamma s) (delta s) (idv s) (ee s) (tstop s) (kk s) (kused s) (knew s) (phase s) (ns s) (hin s) (h0u s) (hh s) (hused s) (rr s) (tretlast s) (cjlast s) (eps_newt s) (epcon s) (maxncf s) (maxnef s) (maxord s) (mxstep s) (hmax_inv s) (nst s) (ncfn s) (netf s) (nni s) (cvals s) (dvals s) (tolsf s) (nrtfn s) (iroots s) (rootdir s) (tlo s) (thi s) (trout s) (glo s) (ghi s) v (toutc s) (ttol s) (taskc s) (irfnd s) (nge s) (gactive s) (mxgnull s) (nls s) (nlp s).
Definition set_toutc (v : T) (s : ida) : ida :=
  mkida (setup_done s) (constraints_set s) (suppressalg s) (phi s) (psi s) (alpha s) (beta s) (sigma s) (gamma s) (delta s) (idv s) (ee s) (tstop s) (kk s) (kused s) (knew s) (phase s) (ns s) (hin s) (h0u s) (hh s) (hused s) (rr s) (tretlast s) (cjlast s) (eps_newt s) (epcon s) (maxncf s) (maxnef s) (maxord s) (mxstep s) (hmax_inv s) (nst s) (ncfn s) (netf s) (nni s) (cvals s) (dvals s) (tolsf s) (nrtfn s) (iroots s) (rootdir s) (tlo s) (thi s) (trout s) (glo s) (ghi s) (grout s) v (ttol s) (taskc s) (irfnd s) (nge s) (gactive s) (mxgnull s) (nls s) (nlp s).
Definition set_ttol (v : T) (s : ida) : ida :=
  mkida (setup_done s) (constraints_set s) (suppressalg s) (phi s) (psi s) (alpha s) (beta s) (sigma s) (gamma s) (delta s) (idv s) (ee s) (tstop s) (kk s) (kused s) (knew s) (phase s) (ns s) (hin s) (h0u s) (hh s) (hused s) (rr s) (tretlast s) (cjlast s) (eps_newt s) (epcon s) (maxncf s) (maxnef s) (maxord s) (mxstep s) (hmax_inv s) (nst s) (ncfn s) (netf s) (nni s) (cvals s) (dvals s) (tolsf s) (nrtfn s) (iroots s) (rootdir s) (tlo s) (thi s) (trout s) (glo s) (ghi s) (grout s) (toutc s) v (taskc s) (irfnd s) (nge s) (gactive s) (mxgnull s) (nls s) (nlp s).
Definition set_taskc (v : task) (s : ida) : ida :=
  mkida (setup_done s) (constraints_set s) (suppressalg s) (phi s) (psi s) (alpha s) (beta s) (sigma s) (gamma s) (delta s) (idv s) (ee s) (tstop s) (kk s) (kused s) (knew s) (phase s) (ns s) (hin s) (h0u s) (hh s) (hused s) (rr s) (tretlast s) (cjlast s) (eps_newt s) (epcon s) (maxncf s) (maxnef s) (maxord s) (mxstep s) (hmax_inv s) (nst s) (ncfn s) (netf s) (nni s) (cvals s) (dvals s) (tolsf s) (nrtfn s) (iroots s) (rootdir s) (tlo s) (thi s) (trout s) (glo s) (ghi s) (grout s) (toutc s) (ttol s) v (irfnd s) (nge s) (gactive s) (mxgnull s) (nls s) (nlp s).
Definition set_irfnd (v : bool) (s : ida) : ida :=
  mkida (setup_done s) (constraints_set s) (suppressalg s) (phi s) (psi s) (alpha s) (beta s) (sigma s) (gamma s) (delta s) (idv s) (ee s) (tstop s) (kk s) (kused s) (knew s) (phase s) (ns s) (hin s) (h0u s) (hh s) (hused s) (rr s) (tretlast s) (cjlast s) (eps_newt s) (epcon s) (maxncf s) (maxnef s) (maxord s) (mxstep s) (hmax_inv s) (nst s) (ncfn s) (netf s) (nni s) (cvals s) (dvals s) (tolsf s) (nrtfn s) (iroots s) (rootdir s) (tlo s) (thi s) (trout s) (glo s) (ghi s) (grout s) (toutc s) (ttol s) (taskc s) v (nge s) (gactive s) (mxgnull s) (nls s) (nlp s).
Definition set_nge (v : nat) (s : ida) : ida :=
  mkida (setup_done s) (constraints_set s) (suppressalg s) (phi s) (psi s) (alpha s) (beta s) (sigma s) (gamma s) (delta s) (idv s) (ee s) (tstop s) (kk s) (kused s) (knew s) (phase s) (ns s) (hin s) (h0u s) (hh s) (hused s) (rr s) (tretlast s) (cjlast s) (eps_newt s) (epcon s) (maxncf s) (maxnef s) (maxord s) (mxstep s) (hmax_inv s) (nst s) (ncfn s) (netf s) (nni s) (cvals s) (dvals s) (tolsf s) (nrtfn s) (iroots s) (rootdir s) (tlo s) (thi s) (trout s) (glo s) (ghi s) (grout s) (toutc s) (ttol s) (taskc s) (irfnd s) v (gactive s) (mxgnull s) (nls s) (nlp s).
Definition set_gactive (v : list bool) (s : ida) : ida :=
  mkida (setup_done s) (constraints_set s) (suppressalg s) (phi s) (psi s) (alpha s) (beta s) (sigma s) (gamma s) (delta s) (idv s) (ee s) (tstop s) (kk s) (kused s) (knew s) (phase s) (ns s) (hin s) (h0u s) (hh s) (hused s) (rr s) (tretlast s) (cjlast s) (eps_newt s) (epcon s) (maxncf s) (maxnef s) (maxord s) (mxstep s) (hmax_inv s) (nst s) (ncfn s) (netf s) (nni s) (cvals s) (dvals s) (tolsf s) (nrtfn s) (iroots s) (rootdir s) (tlo s) (thi s) (trout s) (glo s) (ghi s) (grout s) (toutc s) (ttol s) (taskc s) (irfnd s) (nge s) v (mxgnull s) (nls s) (nlp s).
Definition set_mxgnull (v : nat) (s : ida) : ida :=
  mkida (setup_done s) (constraints_set s) (suppressalg s) (phi s) (psi s) (alpha s) (beta s) (sigma s) (gamma s) (delta s) (idv s) (ee s) (tstop s) (kk s) (kused s) (knew s) (phase s) (ns s) (hin s) (h0u s) (hh s) (hused s) (rr s) (tretlast s) (cjlast s) (eps_newt s) (epcon s) (maxncf s) (maxnef s) (maxord s) (mxstep s) (hmax_inv s) (nst s) (ncfn s) (netf s) (nni s) (cvals s) (dvals s) (tolsf s) (nrtfn s) (iroots s) (rootdir s) (tlo s) (thi s) (trout s) (glo s) (ghi s) (grout s) (toutc s) (ttol s) (taskc s) (irfnd s) (nge s) (gactive s) v (nls s) (nlp s).
Definition set_nls (v : NSt) (s : ida) : ida :=
  mkida (setup_done s) (constraints_set s) (suppressalg s) (phi s) (psi s) (alpha s) (beta s) (sigma s) (gamma s) (delta s) (idv s) (ee s) (tstop s) (kk s) (kused s) (knew s) (phase s) (ns s) (hin s) (h0u s) (hh s) (hused s) (rr s) (tretlast s) (cjlast s) (eps_newt s) (epcon s) (maxncf s) (maxnef s) (maxord s) (mxstep s) (hmax_inv s) (nst s) (ncfn s) (netf s) (nni s) (cvals s) (dvals s) (tolsf s) (nrtfn s) (iroots s) (rootdir s) (tlo s) (thi s) (trout s) (glo s) (ghi s) (grout s) (toutc s) (ttol s) (taskc s) (irfnd s) (nge s) (gactive s) (mxgnull s) v (nlp s).
Definition set_nlp (v : nlprob) (s : ida) : ida :=
  mkida (setup_done s) (constraints_set s) (suppressalg s) (phi s) (psi s) (alpha s) (beta s) (sigma s) (gamma s) (delta s) (idv s) (ee s) (tstop s) (kk s) (kused s) (knew s) (phase s) (ns s) (hin s) (h0u s) (hh s) (hused s) (rr s) (tretlast s) (cjlast s) (eps_newt s) (epcon s) (maxncf s) (maxnef s) (maxord s) (mxstep s) (hmax_inv s) (nst s) (ncfn s) (netf s) (nni s) (cvals s) (dvals s) (tolsf s) (nrtfn s) (iroots s) (rootdir s) (tlo s) (thi s) (trout s) (glo s) (ghi s) (grout s) (toutc s) (ttol s) (taskc s) (irfnd s) (nge s) (gactive s) (mxgnull s) (nls s) v.

End State.
Arguments lprob T LSt : clear implicits.
Arguments nlprob T LSt : clear implicits.
Arguments ida T LSt NSt : clear implicits.
