(** * Dense: model of crates/linear/src/dense.rs

    Matrices carry their dimensions and a total index function; every access
    in the model goes through the bounds-checked [mget]/[mset]/[aget]/[aset],
    so that a panic of the Rust code is a [Panic] of the model. *)
Require Import List Arith Bool.
Import ListNotations.
Require Import Verif.Base Verif.Scalar.

(** nalgebra [Matrix<T, R, C, S>]: dimensions and elements. *)
Record mat (T : Type) : Type := mkmat { nrows : nat; ncols : nat; elem : nat -> nat -> T }.
Arguments mkmat {T}.  Arguments nrows {T}.  Arguments ncols {T}.  Arguments elem {T}.

Section Dense.
Context {T : Type} `{Scalar T}.

(** [mat_a[(i, j)]] with nalgebra's bounds check. *)
Definition mget (a : mat T) (i j : nat) : outcome T :=
  if (i <? nrows a) && (j <? ncols a) then Ret (elem a i j) else Panic.

(** [mat_a[(i, j)] = v]. *)
Definition mset (a : mat T) (i j : nat) (v : T) : outcome (mat T) :=
  if (i <? nrows a) && (j <? ncols a)
  then Ret (mkmat (nrows a) (ncols a)
              (fun i' j' => if (i' =? i) && (j' =? j) then v else elem a i' j'))
  else Panic.

(** [mat_a.swap((i, j), (i', j'))]. *)
Definition mswap (a : mat T) (i j i' j' : nat) : outcome (mat T) :=
  let* x := mget a i j in
  let* y := mget a i' j' in
  let* a1 := mset a i j y in
  mset a1 i' j' x.

(** Pivot search, dense.rs 108-116: [l] starts at [k] and moves to every later
    row whose entry is strictly larger in absolute value. *)
Definition pivot_search (a : mat T) (k : nat) : outcome nat :=
  for_range (k + 1) (nrows a)
    (fun i l =>
       let* aik := mget a i k in
       let* alk := mget a l k in
       Ret (if (sabs alk <? sabs aik)%sc then i else l)) k.

(** Row swap, dense.rs 126-130. *)
Definition swap_rows (a : mat T) (k l : nat) : outcome (mat T) :=
  if l =? k then Ret a
  else for_range 0 (ncols a) (fun i a => mswap a k i l i) a.

(** Column scaling, dense.rs 134-137. *)
Definition scale_col (a : mat T) (k : nat) : outcome (mat T) :=
  let* akk := mget a k k in
  let mult := srecip akk in
  for_range (k + 1) (nrows a)
    (fun i a => let* v := mget a i k in mset a i k (v * mult)%sc) a.

(** Update of the remaining columns, dense.rs 142-154. *)
Definition update_cols (a : mat T) (k : nat) : outcome (mat T) :=
  for_range (k + 1) (ncols a)
    (fun j a =>
       let* akj := mget a k j in
       if sneqb akj szero then
         for_range (k + 1) (nrows a)
           (fun i a =>
              let* aik := mget a i k in
              let* aij := mget a i j in
              mset a i j (aij - akj * aik)%sc) a
       else Ret a) a.

(** One elimination step [k], dense.rs 107-155; [Err (k+1)] on a zero pivot
    (the matrix is left as it was at the beginning of the step, the pivot entry
    has been written). *)
Definition rf_step (a : mat T) (piv : list nat) (k : nat)
  : outcome (mat T * list nat * result unit nat) :=
  let* l := pivot_search a k in
  let* piv := aset piv k l in
  let* alk := mget a l k in
  if (alk =? szero)%sc then Ret (a, piv, Err (k + 1))
  else
    let* a := swap_rows a k l in
    let* a := scale_col a k in
    let* a := update_cols a k in
    Ret (a, piv, Ok tt).

(** Elimination steps [k .. k + cnt). *)
Fixpoint rf_loop (cnt k : nat) (a : mat T) (piv : list nat)
  : outcome (mat T * list nat * result unit nat) :=
  match cnt with
  | 0 => Ret (a, piv, Ok tt)
  | S cnt' =>
      let* (a, piv, r) := rf_step a piv k in
      match r with
      | Err c => Ret (a, piv, Err c)
      | Ok _ => rf_loop cnt' (S k) a piv
      end
  end.

(** [dense_get_rf], dense.rs 86-158 (including the shape assertion). *)
Definition dense_get_rf (a : mat T) (piv : list nat)
  : outcome (mat T * list nat * result unit nat) :=
  if ncols a <=? nrows a then rf_loop (ncols a) 0 a piv else Panic.

(** [b.swap((k,0), (pk,0))]. *)
Definition vswap (b : list T) (i j : nat) : outcome (list T) :=
  let* x := aget b i in
  let* y := aget b j in
  let* b1 := aset b i y in
  aset b1 j x.

(** Permutation of the right-hand side, dense.rs 181-185. *)
Definition permute_rhs (n : nat) (piv : list nat) (b : list T) : outcome (list T) :=
  for_range 0 (Nat.min n (length piv))
    (fun k b => let* pk := aget piv k in
                if pk =? k then Ret b else vswap b k pk) b.

(** Forward substitution, dense.rs 188-194.  [0..(n - 1)] underflows for n = 0. *)
Definition forward_subst (a : mat T) (n : nat) (b : list T) : outcome (list T) :=
  let* nm1 := usub n 1 in
  for_range 0 nm1
    (fun k b =>
       let* bk := aget b k in
       for_range (k + 1) n
         (fun i b => let* aik := mget a i k in
                     let* bi := aget b i in
                     aset b i (bi - aik * bk)%sc) b) b.

(** Backward substitution, dense.rs 197-205. *)
Definition backward_subst (a : mat T) (n : nat) (b : list T) : outcome (list T) :=
  let* b :=
    for_range_rev 1 n
      (fun k b =>
         let* bk := aget b k in
         let* akk := mget a k k in
         let* b := aset b k (bk / akk)%sc in
         let* bk := aget b k in
         for_range 0 k
           (fun i b => let* aik := mget a i k in
                       let* bi := aget b i in
                       aset b i (bi - aik * bk)%sc) b) b in
  let* b0 := aget b 0 in
  let* a00 := mget a 0 0 in
  aset b 0 (b0 / a00)%sc.

(** [dense_get_rs], dense.rs 165-206. *)
Definition dense_get_rs (a : mat T) (piv : list nat) (b : list T) : outcome (list T) :=
  let n := ncols a in
  let* b := permute_rhs n piv b in
  let* b := forward_subst a n b in
  backward_subst a n b.

(** The solver object [Dense { pivots }], dense.rs 15-20; [new], 28-32. *)
Definition dense_new (n : nat) : list nat := repeat 0 n.

(** [Dense::setup], dense.rs 38-44. *)
Definition dense_setup (piv : list nat) (a : mat T)
  : outcome (list nat * mat T * result unit nat) :=
  let* (a, piv, r) := dense_get_rf a piv in
  Ret (piv, a, r).

(** [Dense::solve], dense.rs 46-63: copies b into x and back-substitutes; it
    never returns [Err]. *)
Definition dense_solve (piv : list nat) (a : mat T) (b : list T) (_tol : T)
  : outcome (list T) :=
  dense_get_rs a piv b.

End Dense.
