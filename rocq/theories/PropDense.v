(** * PropDense: properties C01-C05 (crates/linear/src/dense.rs)

    [dense_setup piv0 (mkmat m n A)] models [Dense::setup] on an m x n matrix A
    for a solver created with [n] pivots; [dense_solve] models [Dense::solve].
    [row_of], [Lpart], [Upart], [independent_cols], [solves] are defined in
    DenseSpec.v without reference to the model. *)
Require Import List Arith Lia Reals Lra.
Import ListNotations.
Require Import Verif.Base Verif.Scalar Verif.ScalarR Verif.ScalarF Verif.Dense Verif.RSum Verif.DenseSpec
  Verif.DenseSolveR.
Open Scope R_scope.

(** A concrete 3 x 2 matrix that needs a row swap, and a singular 2 x 2 one. *)
Definition ex32 (i j : nat) : R :=
  match i, j with
  | O, O => 0 | O, _ => 2
  | S O, O => 3 | S O, _ => 4
  | _, O => 1 | _, _ => 5
  end.
Definition ex22s (i j : nat) : R :=
  match i, j with O, O => 1 | O, _ => 2 | _, O => 2 | _, _ => 4 end.

Example ex32_independent m : (2 <= m)%nat -> independent_cols m 2 ex32.
Proof.
  intros Hm x Hx. assert (H0 := Hx 0%nat ltac:(lia)). assert (H1 := Hx 1%nat ltac:(lia)).
  cbn in H0, H1. intros [|[|j]] Hj; [lra | lra | lia].
Qed.

Theorem C01_dense_lu_factorisation : forall m n (A : nat -> nat -> R) piv0 piv F,
  (n <= m)%nat -> length piv0 = n ->
  dense_setup piv0 (mkmat m n A) = Ret (piv, F, Ok tt) ->
  nrows F = m /\ ncols F = n /\ length piv = n /\
  (forall i, (i < m)%nat -> (row_of piv n i < m)%nat) /\
  (forall r, (r < m)%nat -> exists i, (i < m)%nat /\ row_of piv n i = r) /\
  (forall i j, (i < m)%nat -> (j < n)%nat ->
     A (row_of piv n i) j = rsum n (fun p => Lpart (elem F) i p * Upart (elem F) p j)).
Proof. exact dense_lu. Qed.
Print Assumptions C01_dense_lu_factorisation.

Example C01_hypotheses_met :
  exists piv F, dense_setup [0; 0]%nat (mkmat 3 2 ex32) = Ret (piv, F, Ok tt).
Proof. apply (dense_setup_ok_iff 3 2); auto. apply ex32_independent. lia. Qed.

Theorem C02_dense_solve_solves : forall n (A : nat -> nat -> R) piv0 F piv b tol,
  (1 <= n)%nat -> length piv0 = n -> length b = n ->
  dense_setup piv0 (mkmat n n A) = Ret (piv, F, Ok tt) ->
  exists x, dense_solve piv F b tol = Ret x /\ length x = n /\ solves n A x b.
Proof. exact dense_solve_correct. Qed.
Print Assumptions C02_dense_solve_solves.

Theorem C02_dense_solution_unique : forall n (A : nat -> nat -> R) piv0 F piv b x x',
  length piv0 = n -> length x = n -> length x' = n ->
  dense_setup piv0 (mkmat n n A) = Ret (piv, F, Ok tt) ->
  solves n A x b -> solves n A x' b -> x = x'.
Proof. exact dense_solution_unique. Qed.
Print Assumptions C02_dense_solution_unique.

Example C02_hypotheses_met :
  exists piv F x, dense_setup [0; 0]%nat (mkmat 2 2 ex32) = Ret (piv, F, Ok tt) /\
    dense_solve piv F [2; 7] 0 = Ret x /\ x = [1; 1].
Proof.
  destruct (proj2 (dense_setup_ok_iff 2 2 ex32 [0; 0]%nat (le_n 2) eq_refl)
              (ex32_independent 2 (le_n 2))) as (piv & F & E).
  destruct (dense_solve_correct 2 ex32 [0; 0]%nat F piv [2; 7] 0) as (x & Ex & Lx & Sx); auto.
  exists piv, F, x. split; [exact E|]. split; [exact Ex|].
  apply (dense_solution_unique 2 ex32 [0; 0]%nat F piv [2; 7]); auto.
  intros [|[|i]] Hi; cbn; [lra | lra | lia].
Qed.

Theorem C03_dense_ok_iff_independent : forall m n (A : nat -> nat -> R) piv0,
  (n <= m)%nat -> length piv0 = n ->
  (exists piv F, dense_setup piv0 (mkmat m n A) = Ret (piv, F, Ok tt)) <-> independent_cols m n A.
Proof. exact dense_setup_ok_iff. Qed.
Print Assumptions C03_dense_ok_iff_independent.

Theorem C03_dense_err_iff_dependent : forall m n (A : nat -> nat -> R) piv0 c,
  (n <= m)%nat -> length piv0 = n ->
  (exists piv F, dense_setup piv0 (mkmat m n A) = Ret (piv, F, Err c)) <->
  (1 <= c <= n)%nat /\ dependent_cols m c A /\ independent_cols m (c - 1) A.
Proof. exact dense_setup_err_iff. Qed.
Print Assumptions C03_dense_err_iff_dependent.

Example C03_singular_reported :
  exists piv F, dense_setup [0; 0]%nat (mkmat 2 2 ex22s) = Ret (piv, F, Err 2%nat).
Proof.
  apply dense_setup_err_iff; auto. split; [lia|]. split.
  - exists (fun j => match j with O => 2 | _ => -1 end). split; [exists 0%nat; split; [lia|lra]|].
    intros [|[|i]] Hi; cbn; [lra | lra | lia].
  - intros x Hx [|j] Hj; [|lia]. assert (H0 := Hx 0%nat ltac:(lia)). cbn in H0. lra.
Qed.

(** Any scalar: range of the pivots. *)
Theorem C04_dense_pivots_in_range : forall (T : Type) (S : Scalar T) m n (A : nat -> nat -> T) piv0,
  (n <= m)%nat -> length piv0 = n ->
  exists piv F r, dense_setup piv0 (mkmat m n A) = Ret (piv, F, r) /\
    nrows F = m /\ ncols F = n /\ length piv = n /\
    (r = Ok tt -> forall k, (k < n)%nat -> (k <= nth k piv 0 < m)%nat) /\
    (forall c, r = Err c -> (1 <= c <= n)%nat).
Proof. exact @dense_setup_total. Qed.
Print Assumptions C04_dense_pivots_in_range.

Theorem C04_dense_multipliers_bounded : forall m n (A : nat -> nat -> R) piv0 piv F,
  (n <= m)%nat -> length piv0 = n ->
  dense_setup piv0 (mkmat m n A) = Ret (piv, F, Ok tt) ->
  forall i p, (p < n)%nat -> (p < i < m)%nat -> Rabs (elem F i p) <= 1.
Proof. exact dense_multipliers. Qed.
Print Assumptions C04_dense_multipliers_bounded.
(** Hypotheses met: [C01_hypotheses_met]. *)

(** C05, full statement: for all n <= m, setup does not panic, and solve does
    not panic on any vector of length n after a successful square setup.
    Setup: [C04_dense_pivots_in_range].  Solve: true for n >= 1 (partial), false for n = 0
    ([0..(n - 1)] underflows, dense.rs 188). *)
Theorem C05_dense_solve_no_panic_partial :
  forall (T : Type) (S : Scalar T) n (A : nat -> nat -> T) piv0 piv F b tol,
  (1 <= n)%nat -> length piv0 = n -> length b = n ->
  dense_setup piv0 (mkmat n n A) = Ret (piv, F, Ok tt) ->
  exists x, dense_solve piv F b tol = Ret x /\ length x = n.
Proof. exact @dense_solve_total. Qed.
Print Assumptions C05_dense_solve_no_panic_partial.
(** Hypotheses met: [C02_hypotheses_met]. *)

Theorem C05_dense_empty_refuted : forall (T : Type) (S : Scalar T) (A : nat -> nat -> T) tol,
  exists piv F, dense_setup (dense_new 0) (mkmat 0 0 A) = Ret (piv, F, Ok tt) /\
    dense_solve piv F [] tol = Panic.
Proof. exact @dense_empty_refuted. Qed.
Print Assumptions C05_dense_empty_refuted.
