(** * DenseSpec: what it means to factor and solve, independently of the code *)
Require Import List Arith Lia Reals.
Import ListNotations.
Require Import Verif.RSum.
Open Scope R_scope.

(** The transposition of [k] and [l]. *)
Definition transp (k l i : nat) : nat :=
  if (i =? k)%nat then l else if (i =? l)%nat then k else i.

(** Original index of the row found at position [i] after performing, in this
    order, the row swaps (0, p_0), (1, p_1), ..., (k-1, p_(k-1)). *)
Fixpoint row_of (piv : list nat) (k i : nat) : nat :=
  match k with
  | O => i
  | S k' => row_of piv k' (transp k' (nth k' piv 0%nat) i)
  end.

(** Unit lower-trapezoidal and upper-triangular parts of a matrix that stores
    both. *)
Definition Lpart (F : nat -> nat -> R) (i p : nat) : R :=
  if (p <? i)%nat then F i p else if (p =? i)%nat then 1 else 0.
Definition Upart (F : nat -> nat -> R) (p j : nat) : R :=
  if (p <=? j)%nat then F p j else 0.

(** The first [c] columns of an [m]-row matrix are linearly dependent: a
    non-zero combination vanishes. *)
Definition dependent_cols (m c : nat) (A : nat -> nat -> R) : Prop :=
  exists x : nat -> R,
    (exists j, (j < c)%nat /\ x j <> 0) /\
    forall i, (i < m)%nat -> rsum c (fun j => A i j * x j) = 0.

Definition independent_cols (m c : nat) (A : nat -> nat -> R) : Prop :=
  forall x : nat -> R,
    (forall i, (i < m)%nat -> rsum c (fun j => A i j * x j) = 0) ->
    forall j, (j < c)%nat -> x j = 0.

(** [x] solves [A x = b] (square, [n] unknowns). *)
Definition solves (n : nat) (A : nat -> nat -> R) (x b : list R) : Prop :=
  forall i, (i < n)%nat -> rsum n (fun j => A i j * nth j x 0) = nth i b 0.
