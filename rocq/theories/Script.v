(** * Script: a nonlinear solver object that answers from a script

    Not part of /repo.  The theorems about the integrator hold for every
    nonlinear solver that reaches the problem through its methods
    ([nls_lawful]); this one is total, so it is used to show that their
    hypotheses can be met (over the reals nothing can be run). *)
Require Import List Arith Bool Lia.
Import ListNotations.
Require Import Verif.Base Verif.Scalar Verif.Dense Verif.Norms Verif.Newton Verif.NewtonSpec Verif.IdaState
  Verif.IdaNls Verif.IdaCore Verif.BaseFacts Verif.NewtonFacts Verif.IdaFacts Verif.IdaSafe Verif.VecR.
Open Scope nat_scope.

Section Script.
Context {T : Type} `{Scalar T}.

(** One entry per solve: the correction to return, or a recoverable
    convergence failure; the zero correction when the script is used up. *)
Definition script : Type := list (option (list T)).

Definition script_solve (S : Type) (P : nlproblem T S) (size : nat) (s : script) (x : S)
    (d y w : list T) (tol : T) (call : bool) : outcome (script * S * list T * result unit nlerr) :=
  let e := match s with Some e :: _ => e | None :: _ => y | [] => vzero size end in
  let* (x, _, _) := np_sys P x e in
  Ret (tl s, x, e, match s with None :: _ => Err ConvergenceRecover | _ => Ok tt end).

Definition ScriptNLS (s0 : script) : NLSolver T script := {|
  nls_new := fun _ _ => s0;
  nls_setup := fun s y => Ret (s, y, Ok tt);
  nls_solve := script_solve;
  nls_num_iters := fun _ => 0 |}.

Lemma script_lawful s0 : @nls_lawful T script (ScriptNLS s0).
Proof.
  intros S P Q (HQ & _) size s x d y w tol call s' x' y' r Hx E. cbn in E. unfold script_solve in E.
  apply bind_ret_inv in E. destruct E as (((x1 & f) & r1) & E1 & E). cbv beta iota in E.
  injection E as _ <- _ _. exact (HQ _ _ _ _ _ Hx E1).
Qed.

Lemma script_setup_total s0 (s : script) (y : list T) :
  exists s', @nls_setup _ _ (ScriptNLS s0) s y = Ret s'.
Proof. cbn. eauto. Qed.

Lemma script_solve_total {LSt} `{LSolver T LSt} (prob : problem T) s0 (s : script) (x : nlprob T LSt) y0 y w tol call :
  exists r, @nls_solve _ _ (ScriptNLS s0) _ (ida_nlproblem prob) (model_size prob) s x y0 y w tol call = Ret r.
Proof. cbn. unfold script_solve. cbn. eauto. Qed.

End Script.
Arguments script : clear implicits.
