(** * NewtonSpec: what an execution of the Newton solver may look like

    The observable behaviour of [Newton::solve] is the sequence of calls it
    makes to the problem.  [traced P] is the problem [P] with a ghost log of
    these calls; the grammar below describes legal logs without reference to
    the solver's code. *)
Require Import List Arith Bool.
Import ListNotations.
Require Import Verif.Base Verif.Scalar Verif.Newton.

Inductive nlevent (T : Type) : Type :=
| EvSys (y f : list T) (r : result unit nlerr)
| EvSetup (y f : list T) (jbad : bool) (r : result bool nlerr)
| EvSolve (y b x : list T) (r : result unit nlerr)
| EvCtest (it : nat) (y del : list T) (tol : T) (w : list T) (r : result bool nlerr).
Arguments EvSys {T}.  Arguments EvSetup {T}.  Arguments EvSolve {T}.  Arguments EvCtest {T}.

(** The problem with a log. *)
Definition traced {T S} (P : nlproblem T S) : nlproblem T (S * list (nlevent T)) :=
  mknlproblem
    (fun sl y =>
       let* (s, f, r) := np_sys P (fst sl) y in
       Ret ((s, snd sl ++ [EvSys y f r]), f, r))
    (fun sl y f jbad =>
       let* (s, r) := np_setup P (fst sl) y f jbad in
       Ret ((s, snd sl ++ [EvSetup y f jbad r]), r))
    (fun sl y b =>
       let* (s, x, r) := np_solve P (fst sl) y b in
       Ret ((s, snd sl ++ [EvSolve y b x r]), x, r))
    (fun sl it y del tol w =>
       let* (s, r) := np_ctest P (fst sl) it y del tol w in
       Ret ((s, snd sl ++ [EvCtest it y del tol w r]), r)).

Definition is_solve {T} (e : nlevent T) : bool :=
  match e with EvSolve _ _ _ _ => true | _ => false end.
Definition is_setup {T} (e : nlevent T) : bool :=
  match e with EvSetup _ _ _ _ => true | _ => false end.
Definition count {A} (p : A -> bool) (l : list A) : nat := length (filter p l).
Definition is_err {A E} (r : result A E) : bool := match r with Ok _ => false | Err _ => true end.

Section Spec.
Context {T : Type} `{Scalar T}.
Variables (dim maxit : nat) (y0 w : list T) (tol : T).

(** Componentwise: [c = a + b], [c = - a] on the first [dim] components. *)
Definition is_sum (a b c : list T) : Prop :=
  length c = dim /\
  forall i, i < dim -> nth i c szero = (nth i a szero + nth i b szero)%sc.
Definition is_neg (a c : list T) : Prop :=
  length c = dim /\ forall i, i < dim -> nth i c szero = (- nth i a szero)%sc.

(** A converging sequence of iterations starting with iterate [y], residual
    [f] and iteration index [c]: each update solves with minus the residual at
    the current iterate and is added to it; the test rejects every update but
    the last, on which it answers [true]; residuals are evaluated in between. *)
Inductive converging : nat -> list T -> list T -> list (nlevent T) -> list T -> Prop :=
| Conv_last c y f b x y' :
    is_neg f b -> is_sum y x y' ->
    converging c y f [EvSolve y b x (Ok tt); EvCtest c y' x tol w (Ok true)] y'
| Conv_more c y f b x y1 f1 es y' :
    is_neg f b -> is_sum y x y1 -> c + 1 < maxit ->
    converging (c + 1) y1 f1 es y' ->
    converging c y f
      (EvSolve y b x (Ok tt) :: EvCtest c y1 x tol w (Ok false) :: EvSys y1 f1 (Ok tt) :: es) y'.

(** A failing one: a callback reports an error, or the limit is reached. *)
Inductive failing : nat -> list T -> list T -> list (nlevent T) -> list T -> nlerr -> Prop :=
| Fail_solve c y f b x e :
    is_neg f b -> failing c y f [EvSolve y b x (Err e)] y e
| Fail_ctest c y f b x y' e :
    is_neg f b -> is_sum y x y' ->
    failing c y f [EvSolve y b x (Ok tt); EvCtest c y' x tol w (Err e)] y' e
| Fail_limit c y f b x y' :
    is_neg f b -> is_sum y x y' -> maxit <= c + 1 ->
    failing c y f [EvSolve y b x (Ok tt); EvCtest c y' x tol w (Ok false)] y' ConvergenceRecover
| Fail_sys c y f b x y' f' e :
    is_neg f b -> is_sum y x y' -> c + 1 < maxit ->
    failing c y f
      [EvSolve y b x (Ok tt); EvCtest c y' x tol w (Ok false); EvSys y' f' (Err e)] y' e
| Fail_more c y f b x y1 f1 es y' e :
    is_neg f b -> is_sum y x y1 -> c + 1 < maxit ->
    failing (c + 1) y1 f1 es y' e ->
    failing c y f
      (EvSolve y b x (Ok tt) :: EvCtest c y1 x tol w (Ok false) :: EvSys y1 f1 (Ok tt) :: es) y' e.

Definition iterating c y f es y' (r : result unit nlerr) : Prop :=
  match r with
  | Ok _ => converging c y f es y'
  | Err e => failing c y f es y' e
  end.

(** One attempt: residual at the initial guess, set-up of the linear solver iff
    [call] (with flag [jbad]), then iterations from the initial guess.  [j0] and
    [j1] are the Jacobian status before and after: what the set-up answered,
    and stale again after a success. *)
Inductive one_attempt (call jbad j0 : bool) (yin : list T)
  : list (nlevent T) -> bool -> list T -> result unit nlerr -> Prop :=
| Att_sys f e : one_attempt call jbad j0 yin [EvSys y0 f (Err e)] j0 yin (Err e)
| Att_setup f e : call = true ->
    one_attempt call jbad j0 yin
      [EvSys y0 f (Ok tt); EvSetup y0 f jbad (Err e)] j0 yin (Err e)
| Att_iter f su j es y' r :
    (if call then su = [EvSetup y0 f jbad (Ok j)] else su = [] /\ j = j0) ->
    iterating 0 y0 f es y' r ->
    one_attempt call jbad j0 yin
      (EvSys y0 f (Ok tt) :: su ++ es) (is_err r && j) y' r.

(** A whole solve: attempts that fail recoverably are repeated.  With a stale
    Jacobian the next attempt refreshes it ([call = jbad = true]) and counts as
    a retry; with a current Jacobian the attempt is repeated as it was. *)
Inductive newton_run (call jbad j0 : bool) (yin : list T)
  : list (nlevent T) -> nat -> bool -> list T -> result unit nlerr -> Prop :=
| Run_done es j1 y' r :
    one_attempt call jbad j0 yin es j1 y' r -> r <> Err ConvergenceRecover ->
    newton_run call jbad j0 yin es 0 j1 y' r
| Run_stale es1 y1 es2 k j2 y' r :
    one_attempt call jbad j0 yin es1 false y1 (Err ConvergenceRecover) ->
    newton_run true true false y1 es2 k j2 y' r ->
    newton_run call jbad j0 yin (es1 ++ es2) (S k) j2 y' r
| Run_current es1 y1 es2 k j2 y' r :
    one_attempt call jbad j0 yin es1 true y1 (Err ConvergenceRecover) ->
    newton_run call jbad true y1 es2 k j2 y' r ->
    newton_run call jbad j0 yin (es1 ++ es2) k j2 y' r.

End Spec.
