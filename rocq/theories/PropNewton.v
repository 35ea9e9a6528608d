(** * PropNewton: properties C06-C12, C70 (crates/nonlinear/src/newton.rs)

    [newton_solve P dim fuel n s y0 y w tol call] models [Newton::solve] for an
    arbitrary problem [P]; [fuel] bounds the number of passes of the ['outer]
    loop.  [log_of ... es] says that [es] is the sequence of callback
    invocations of that execution; [converging], [failing], [one_attempt],
    [newton_run] (NewtonSpec.v) describe legal logs. *)
Require Import List Arith Lia Reals Lra.
Import ListNotations.
Require Import Verif.Base Verif.Scalar Verif.ScalarR Verif.Norms Verif.Dense Verif.Newton Verif.RSum
  Verif.DenseSpec Verif.NewtonSpec Verif.NewtonFacts Verif.NewtonR.
Open Scope nat_scope.

(** The log is a ghost: it never influences the execution. *)
Theorem C06_log_is_ghost : forall (T : Type) (Sc : Scalar T) (S : Type) (P : nlproblem T S)
    dim fuel n s tr y0 y w tol call,
  untrace (newton_solve (traced P) dim fuel n (s, tr) y0 y w tol call)
  = newton_solve P dim fuel n s y0 y w tol call.
Proof. exact @newton_untrace. Qed.
Print Assumptions C06_log_is_ghost.

Theorem C06_newton_ok_means_accepted : forall (T : Type) (Sc : Scalar T) (S : Type) (P : nlproblem T S)
    dim fuel n s y0 y w tol call n' s' y',
  newton_solve P dim fuel n s y0 y w tol call = Ret (n', s', y', Ok tt) ->
  exists es pre f0 su last,
    log_of P dim fuel n s y0 y w tol call es /\ Forall (produced P) es /\
    es = pre ++ EvSys y0 f0 (Ok tt) :: su ++ last /\
    (su = [] \/ exists jb j, su = [EvSetup y0 f0 jb (Ok j)]) /\
    converging dim (nw_maxiters n) w tol 0 y0 f0 last y'.
Proof. exact @newton_ok. Qed.
Print Assumptions C06_newton_ok_means_accepted.

(** A returning execution with two attempts (any scalar, any dimension). *)
Example C06_hypotheses_met : forall (T : Type) (Sc : Scalar T) (y w : list T) tol dim,
  exists n' s' y', newton_solve second_try dim 2 (newton_new dim 1) false y y w tol true
                   = Ret (n', s', y', Ok tt).
Proof. intros. do 3 eexists. reflexivity. Qed.

Theorem C07_newton_iteration_bound : forall (T : Type) (Sc : Scalar T) (S : Type) (P : nlproblem T S)
    dim fuel n s y0 y w tol call n' s' y' r,
  newton_solve P dim fuel n s y0 y w tol call = Ret (n', s', y', r) ->
  nw_curiter n <= Nat.max 1 (nw_maxiters n) ->
  exists es atts,
    log_of P dim fuel n s y0 y w tol call es /\ es = concat atts /\
    Forall (fun a => (exists f r0 rest, a = EvSys y0 f r0 :: rest) /\
                     count is_solve a <= Nat.max 1 (nw_maxiters n)) atts /\
    Forall (test_index_lt (Nat.max 1 (nw_maxiters n))) es /\
    nw_curiter n' <= Nat.max 1 (nw_maxiters n').
Proof. exact @newton_solve_bound. Qed.
Print Assumptions C07_newton_iteration_bound.
Example C07_hypotheses_met : forall (T : Type) (Sc : Scalar T) dim m,
  nw_curiter (newton_new (T:=T) dim m) <= Nat.max 1 (nw_maxiters (newton_new (T:=T) dim m)).
Proof. intros. apply Nat.le_0_l. Qed.

Theorem C08_newton_counters_exact : forall (T : Type) (Sc : Scalar T) (S : Type) (P : nlproblem T S)
    dim fuel n s y0 y w tol call n' s' y' r,
  newton_solve P dim fuel n s y0 y w tol call = Ret (n', s', y', r) ->
  exists es retries,
    log_of P dim fuel n s y0 y w tol call es /\
    newton_run dim (nw_maxiters n) y0 w tol call false (nw_jcur n) y es retries (nw_jcur n') y' r /\
    nw_niters n' = nw_niters n + count is_solve es /\
    nw_nconvfails n' = nw_nconvfails n + retries + (if is_err r then 1 else 0).
Proof. exact @newton_counters. Qed.
Print Assumptions C08_newton_counters_exact.
(** Hypotheses met: [C06_hypotheses_met]. *)

(** C09, full statement: whenever all callbacks return, [Newton::solve] returns.
    False: *)
Theorem C09_newton_returns_refuted : forall (T : Type) (Sc : Scalar T) dim,
  exists P : nlproblem T unit, callbacks_return P /\
    forall fuel n s y0 y w tol call, newton_solve P dim fuel n s y0 y w tol call = Diverge.
Proof.
  intros T Sc dim. exists stubborn.
  exact (conj stubborn_returns (fun f n s y0 y w tol call => stubborn_diverges dim f n s y0 y w tol call)).
Qed.
Print Assumptions C09_newton_returns_refuted.

(** Part that holds: each attempt returns, and one attempt is enough when no
    callback reports a recoverable failure and the test accepts at the latest in
    the last permitted iteration. *)
Theorem C09_newton_attempt_returns_partial : forall (T : Type) (Sc : Scalar T) (S : Type)
    (P : nlproblem T S) dim, callbacks_return P ->
  forall y0 w tol call jbad n s y, exists x, attempt P dim y0 w tol call jbad n s y = Ret x.
Proof. exact @attempt_returns. Qed.
Print Assumptions C09_newton_attempt_returns_partial.

Theorem C09_newton_returns_partial : forall (T : Type) (Sc : Scalar T) (S : Type)
    (P : nlproblem T S) dim n s y0 y w tol call,
  callbacks_return P ->
  (forall s i y d tol w s', Nat.max 1 (nw_maxiters n) <= i + 1 ->
     np_ctest P s i y d tol w <> Ret (s', Ok false)) ->
  (forall e, produced P e -> match e with
      | EvSys _ _ r | EvSolve _ _ _ r => r <> Err ConvergenceRecover
      | EvSetup _ _ _ r | EvCtest _ _ _ _ _ r => r <> Err ConvergenceRecover end) ->
  exists x, forall fuel, 1 <= fuel -> newton_solve P dim fuel n s y0 y w tol call = Ret x.
Proof. exact @newton_returns. Qed.
Print Assumptions C09_newton_returns_partial.

Definition patient {T} : nlproblem T unit :=
  mknlproblem (fun _ y => Ret (tt, y, Ok tt)) (fun _ _ _ _ => Ret (tt, Ok true))
              (fun _ _ b => Ret (tt, b, Ok tt)) (fun _ i _ _ _ _ => Ret (tt, Ok (2 <=? i))).
Example C09_hypotheses_met : forall (T : Type) (Sc : Scalar T),
  callbacks_return (patient (T:=T)) /\
  (forall s i y d tol w s', Nat.max 1 3 <= i + 1 ->
     np_ctest (patient (T:=T)) s i y d tol w <> Ret (s', Ok false)) /\
  (forall e, produced (patient (T:=T)) e -> match e with
      | EvSys _ _ r | EvSolve _ _ _ r => r <> Err ConvergenceRecover
      | EvSetup _ _ _ r | EvCtest _ _ _ _ _ r => r <> Err ConvergenceRecover end).
Proof.
  intros T Sc. split; [unfold callbacks_return; cbn; repeat split; eauto|]. split.
  - intros [] i y d tol w [] Hi E. change (Ret (tt, Ok (E:=nlerr) (2 <=? i)) = Ret (tt, Ok false)) in E.
    assert (E2 : (2 <=? i) = false) by congruence. apply Nat.leb_gt in E2. lia.
  - intros []; cbn; intros ([] & [] & E); congruence.
Qed.

(** C10, full statement: an execution whose last attempt fails recoverably with
    a current Jacobian returns [Err ConvergenceRecover].  False in the strongest
    possible way: no execution of any problem ever returns it. *)
Theorem C10_recover_never_reported_refuted : forall (T : Type) (Sc : Scalar T) (S : Type)
    (P : nlproblem T S) dim fuel n s y0 y w tol call n' s' y' r,
  newton_solve P dim fuel n s y0 y w tol call = Ret (n', s', y', r) -> r <> Err ConvergenceRecover.
Proof. exact @newton_never_recover. Qed.
Print Assumptions C10_recover_never_reported_refuted.

(** C11, full statement: set-up runs in the first attempt iff asked for, with
    jbad = false; every later attempt runs it exactly once with jbad = true.
    The second half is false: after a failure with a current Jacobian the
    attempt is repeated with the flags it had. *)
Theorem C11_newton_refresh_refuted : forall (T : Type) (Sc : Scalar T) (y w : list T) (tol : T) dim,
  exists f b y' n' s',
    newton_solve (traced second_try) dim 2 (newton_new dim 1) (false, []) y y w tol true =
    Ret (n', (s', [EvSys y f (Ok tt); EvSetup y f false (Ok true); EvSolve y b b (Ok tt);
                   EvCtest 0 y' b tol w (Ok false);
                   EvSys y f (Ok tt); EvSetup y f false (Ok true); EvSolve y b b (Ok tt);
                   EvCtest 0 y' b tol w (Ok true)]), y', Ok tt).
Proof. exact @second_try_log. Qed.
Print Assumptions C11_newton_refresh_refuted.

(** What holds: the protocol [newton_run] (first attempt with the caller's flag
    and jbad = false; after a recoverable failure with a stale Jacobian an
    attempt with set-up and jbad = true; after one with a current Jacobian the
    same attempt again; any other result ends the solve), and within each
    attempt set-up runs exactly once iff its flag is set and the residual
    evaluation succeeded. *)
Theorem C11_newton_protocol_partial : forall (T : Type) (Sc : Scalar T) (S : Type) (P : nlproblem T S)
    dim fuel n s y0 y w tol call n' s' y' r,
  newton_solve P dim fuel n s y0 y w tol call = Ret (n', s', y', r) ->
  exists es k,
    newton_solve (traced P) dim fuel n (s, []) y0 y w tol call = Ret (n', (s', es), y', r) /\
    newton_run dim (nw_maxiters n) y0 w tol call false (nw_jcur n) y es k (nw_jcur n') y' r /\
    nw_maxiters n' = nw_maxiters n /\
    nw_niters n' = nw_niters n + count is_solve es /\
    nw_nconvfails n' = nw_nconvfails n + k + (if is_err r then 1 else 0) /\
    nw_curiter n' <= Nat.max (nw_curiter n) (Nat.max 1 (nw_maxiters n)).
Proof. exact @newton_solve_run. Qed.
Print Assumptions C11_newton_protocol_partial.

Theorem C11_attempt_setups_partial : forall (T : Type) (Sc : Scalar T) dim maxit y0 (w : list T) tol
    call jbad j0 yin es j1 y' r,
  one_attempt dim maxit y0 w tol call jbad j0 yin es j1 y' r ->
  (call = false -> count is_setup es = 0) /\
  (call = true ->
     (exists f e, es = [EvSys y0 f (Err e)]) \/
     count is_setup es = 1 /\ exists f rs rest, es = EvSys y0 f (Ok tt) :: EvSetup y0 f jbad rs :: rest).
Proof. exact @attempt_setups. Qed.
Print Assumptions C11_attempt_setups_partial.

Open Scope R_scope.
Theorem C12_newton_affine_exact : forall (S : Type) (P : nlproblem R S) dim A c,
  evaluates_affine P dim A c -> solves_exactly P dim A ->
  forall fuel n s y0 y w tol call n' s' y',
  newton_solve P dim fuel n s y0 y w tol call = Ret (n', s', y', Ok tt) ->
  forall i, (i < dim)%nat -> affine dim A c y' i = 0.
Proof. exact @newton_affine. Qed.
Print Assumptions C12_newton_affine_exact.

(** The one-dimensional system 2 y - 6 = 0. *)
Definition two_y : nlproblem R unit :=
  mknlproblem (fun s y => Ret (s, [2 * nth 0 y 0 - 6], Ok tt)) (fun s _ _ _ => Ret (s, Ok true))
              (fun s _ b => Ret (s, [nth 0 b 0 / 2], Ok tt)) (fun s _ _ _ _ _ => Ret (s, Ok true)).
Example C12_hypotheses_met :
  evaluates_affine two_y 1 (fun _ _ => 2) (fun _ => -6) /\ solves_exactly two_y 1 (fun _ _ => 2) /\
  exists n' y', newton_solve two_y 1 1 (newton_new 1 4) tt [100] [0] [1] 0 true = Ret (n', tt, y', Ok tt).
Proof.
  split; [|split; [|do 2 eexists; reflexivity]].
  - intros s y s' f E i Hi. cbn in E. injection E as <- <-. destruct i; [|lia].
    unfold affine. cbn. lra.
  - intros s y b s' x E i Hi. cbn in E. injection E as <- <-. destruct i; [|lia]. cbn. lra.
Qed.

(** C70: the crates' Newton and dense solvers together: for every nonsingular
    matrix, every right-hand side and every initial guess, a solve with set-up
    succeeds within two iterations and returns the solution. *)
Theorem C70_newton_dense_solves_linear_systems : forall dim A b n s y0 y w tol,
  (1 <= dim)%nat -> independent_cols dim dim A -> 0 <= tol -> (2 <= nw_maxiters n)%nat ->
  exists n' s' y',
    newton_solve (linear_problem dim A b) dim 1 n s y0 y w tol true = Ret (n', s', y', Ok tt) /\
    (forall i, (i < dim)%nat -> rsum dim (fun j => A i j * nth j y' 0) = nth i b 0) /\
    (nw_niters n' <= nw_niters n + 2)%nat.
Proof. exact newton_dense_linear. Qed.
Print Assumptions C70_newton_dense_solves_linear_systems.
Example C70_hypotheses_met :
  independent_cols 2 2 (fun i j => match i, j with O, O => 0 | O, _ => 2 | _, O => 3 | _, _ => 4 end).
Proof.
  intros x Hx. assert (H0 := Hx 0%nat ltac:(lia)). assert (H1 := Hx 1%nat ltac:(lia)).
  cbn in H0, H1. intros [|[|j]] Hj; [lra | lra | lia].
Qed.
