(** * Base: outcomes, results, checked arrays, loops

    Shared vocabulary of the model.  Nothing here models a particular Rust
    function; it fixes how Rust control flow is represented. *)
Require Import List Arith Bool Lia.
Import ListNotations.

(** Outcome of running a piece of Rust code: it returns, it panics (index out
    of bounds, usize underflow, unwrap on Err, unimplemented!), or the model's
    fuel for a [loop] ran out. *)
Inductive outcome (A : Type) : Type :=
| Ret (a : A)
| Panic
| Diverge.
Arguments Ret {A} a.
Arguments Panic {A}.
Arguments Diverge {A}.

Definition bind {A B} (m : outcome A) (k : A -> outcome B) : outcome B :=
  match m with
  | Ret a => k a
  | Panic => Panic
  | Diverge => Diverge
  end.

Notation "'let*' p := m 'in' k" := (bind m (fun p => k))
  (at level 200, p pattern, m at level 100, k at level 200, right associativity).

(** Rust's [Result<A, E>]. *)
Inductive result (A E : Type) : Type :=
| Ok (a : A)
| Err (e : E).
Arguments Ok {A E} a.
Arguments Err {A E} e.

(** [usize] subtraction: panics on underflow (debug builds; in release builds
    the wrapped value leads to an out-of-bounds panic at every use in /repo). *)
Definition usub (a b : nat) : outcome nat :=
  if b <=? a then Ret (a - b) else Panic.

(** Checked array read [a[i]]. *)
Definition aget {A} (l : list A) (i : nat) : outcome A :=
  match nth_error l i with
  | Some x => Ret x
  | None => Panic
  end.

Fixpoint upd {A} (l : list A) (i : nat) (v : A) : list A :=
  match l, i with
  | [], _ => []
  | _ :: t, 0 => v :: t
  | h :: t, S i' => h :: upd t i' v
  end.

(** Checked array write [a[i] = v]. *)
Definition aset {A} (l : list A) (i : nat) (v : A) : outcome (list A) :=
  if i <? length l then Ret (upd l i v) else Panic.

(** Bounds check done by ndarray when slicing [lo..hi] of an axis of length
    [len] (an inverted range is empty, not an error). *)
Definition slice_chk (lo hi len : nat) : outcome unit :=
  if (lo <=? len) && (hi <=? len) then Ret tt else Panic.

(** [for i in is { s = f(i, s) }]. *)
Fixpoint foldm {S} (f : nat -> S -> outcome S) (is : list nat) (s : S) : outcome S :=
  match is with
  | [] => Ret s
  | i :: tl => let* s' := f i s in foldm f tl s'
  end.

(** [for i in lo..hi { s = f(i, s) }] (empty when [hi <= lo]). *)
Definition for_range {S} (lo hi : nat) (f : nat -> S -> outcome S) (s : S) : outcome S :=
  foldm f (seq lo (hi - lo)) s.

(** [for i in (lo..hi).rev()]. *)
Definition for_range_rev {S} (lo hi : nat) (f : nat -> S -> outcome S) (s : S) : outcome S :=
  foldm f (rev (seq lo (hi - lo))) s.

(** Tabulated vector of length [n]. *)
Definition vtab {A} (n : nat) (f : nat -> A) : list A := map f (seq 0 n).

Declare Scope scalar_scope.
Delimit Scope scalar_scope with sc.
