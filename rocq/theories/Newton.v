(** * Newton: model of crates/nonlinear/src/newton.rs and traits.rs *)
Require Import List Arith Bool.
Import ListNotations.
Require Import Verif.Base Verif.Scalar Verif.Norms.

(** [nonlinear::Error], crates/nonlinear/src/lib.rs 10-35 (the linear error
    carries the failing column, crates/linear/src/lib.rs). *)
Inductive nlerr : Type :=
| Continue
| ConvergenceRecover
| IllegalInput
| LinearSetupFailed (col : nat).

(** The [NLProblem] trait, crates/nonlinear/src/traits.rs 5-127, for a problem
    with mutable state [S] and vectors [list T].  Every method returns the new
    state; [sys] and [lsolve] also return the contents of their output buffer.
    [ctest] receives the solver only through [get_cur_iter], the one getter the
    implementations in /repo use. *)
Record nlproblem (T S : Type) : Type := mknlproblem {
  np_sys : S -> list T -> outcome (S * list T * result unit nlerr);
  np_setup : S -> list T -> list T -> bool -> outcome (S * result bool nlerr);
  np_solve : S -> list T -> list T -> outcome (S * list T * result unit nlerr);
  np_ctest : S -> nat -> list T -> list T -> T -> list T -> outcome (S * result bool nlerr)
}.
Arguments mknlproblem {T S}.
Arguments np_sys {T S}.  Arguments np_setup {T S}.
Arguments np_solve {T S}.  Arguments np_ctest {T S}.

(** [struct Newton], newton.rs 14-32. *)
Record newton (T : Type) : Type := mknewton {
  nw_delta : list T;
  nw_jcur : bool;
  nw_curiter : nat;
  nw_maxiters : nat;
  nw_niters : nat;
  nw_nconvfails : nat
}.
Arguments mknewton {T}.
Arguments nw_delta {T}.  Arguments nw_jcur {T}.  Arguments nw_curiter {T}.
Arguments nw_maxiters {T}.  Arguments nw_niters {T}.  Arguments nw_nconvfails {T}.

Section Newton.
Context {T : Type} `{Scalar T} {S : Type}.
Variable prob : nlproblem T S.
Variable dim : nat.                        (* D::dim() *)

Definition set_delta (d : list T) (n : newton T) : newton T :=
  mknewton d (nw_jcur n) (nw_curiter n) (nw_maxiters n) (nw_niters n) (nw_nconvfails n).
Definition set_jcur (b : bool) (n : newton T) : newton T :=
  mknewton (nw_delta n) b (nw_curiter n) (nw_maxiters n) (nw_niters n) (nw_nconvfails n).
Definition set_curiter (c : nat) (n : newton T) : newton T :=
  mknewton (nw_delta n) (nw_jcur n) c (nw_maxiters n) (nw_niters n) (nw_nconvfails n).
Definition inc_niters (n : newton T) : newton T :=
  mknewton (nw_delta n) (nw_jcur n) (nw_curiter n) (nw_maxiters n) (nw_niters n + 1) (nw_nconvfails n).
Definition inc_nconvfails (n : newton T) : newton T :=
  mknewton (nw_delta n) (nw_jcur n) (nw_curiter n) (nw_maxiters n) (nw_niters n) (nw_nconvfails n + 1).

(** [Newton::new], newton.rs 40-49. *)
Definition newton_new (maxiters : nat) : newton T :=
  mknewton (vzero dim) false 0 maxiters 0 0.

(** The ['inner] loop, newton.rs 96-135.  One iteration: count it, negate the
    residual, solve the linear system, add the update to y, run the convergence
    test; on "not converged" count and either give up with ConvergenceRecover or
    re-evaluate the residual and continue. *)
Fixpoint inner_loop (fuel : nat) (w : list T) (tol : T)
         (n : newton T) (s : S) (y : list T)
  : outcome (newton T * S * list T * result unit nlerr) :=
  match fuel with
  | 0 => Diverge
  | Datatypes.S fuel' =>
      let n := inc_niters n in
      let n := set_delta (vneg dim (nw_delta n)) n in
      let* (s, d, r) := np_solve prob s y (nw_delta n) in
      let n := set_delta d n in
      match r with
      | Err e => Ret (n, s, y, Err e)
      | Ok _ =>
          let y := vadd dim y (nw_delta n) in
          let* (s, r) := np_ctest prob s (nw_curiter n) y (nw_delta n) tol w in
          match r with
          | Err e => Ret (n, s, y, Err e)
          | Ok true => Ret (set_jcur false n, s, y, Ok tt)
          | Ok false =>
              let n := set_curiter (nw_curiter n + 1) n in
              if nw_maxiters n <=? nw_curiter n
              then Ret (n, s, y, Err ConvergenceRecover)
              else
                let* (s, d, r) := np_sys prob s y in
                let n := set_delta d n in
                match r with
                | Err e => Ret (n, s, y, Err e)
                | Ok _ => inner_loop fuel' w tol n s y
                end
          end
      end
  end.

(** One pass of the ['outer] loop body up to [match retval], newton.rs 75-136. *)
Definition attempt (y0 w : list T) (tol : T) (call_lsetup jbad : bool)
           (n : newton T) (s : S) (y : list T)
  : outcome (newton T * S * list T * result unit nlerr) :=
  let* (s, d, r) := np_sys prob s y0 in
  let n := set_delta d n in
  match r with
  | Err e => Ret (n, s, y, Err e)
  | Ok _ =>
      let* (n, s, r) :=
        (if call_lsetup
         then let* (s, r) := np_setup prob s y0 (nw_delta n) jbad in
              match r with
              | Ok j => Ret (set_jcur j n, s, Ok tt)
              | Err e => Ret (n, s, Err e)
              end
         else Ret (n, s, Ok tt)) in
      match r with
      | Err e => Ret (n, s, y, Err e)
      | Ok _ =>
          let n := set_curiter 0 n in
          inner_loop (Datatypes.S (nw_maxiters n)) w tol n s y0
      end
  end.

(** The ['outer] loop, newton.rs 73-160, and the error exit 162-166.  Note the
    fall-through of the [ConvergenceRecover] arm when the Jacobian is current
    (newton.rs 146-153): neither [break] nor [continue], so the loop repeats
    with unchanged flags. *)
Fixpoint outer_loop (fuel : nat) (y0 w : list T) (tol : T) (call_lsetup jbad : bool)
         (n : newton T) (s : S) (y : list T)
  : outcome (newton T * S * list T * result unit nlerr) :=
  match fuel with
  | 0 => Diverge
  | Datatypes.S fuel' =>
      let* (n, s, y, r) := attempt y0 w tol call_lsetup jbad n s y in
      match r with
      | Ok _ => Ret (n, s, y, Ok tt)
      | Err ConvergenceRecover =>
          if negb (nw_jcur n)
          then outer_loop fuel' y0 w tol true true (inc_nconvfails n) s y
          else outer_loop fuel' y0 w tol call_lsetup jbad n s y
      | Err e => Ret (inc_nconvfails n, s, y, Err e)
      end
  end.

(** [Newton::solve], newton.rs 51-167. *)
Definition newton_solve (fuel : nat) (n : newton T) (s : S)
           (y0 y w : list T) (tol : T) (call_lsetup : bool)
  : outcome (newton T * S * list T * result unit nlerr) :=
  outer_loop fuel y0 w tol call_lsetup false n s y.

End Newton.
