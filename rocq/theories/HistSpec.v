(** * HistSpec: vocabulary for the solution history seen in a ghost trace
    Nothing in this file refers to the model's functions. *)
Require Import List Arith Bool Lia Reals.
Import ListNotations.
Require Import Verif.Base Verif.Scalar Verif.ScalarR Verif.IdaState Verif.IdaSpec Verif.RSum Verif.PolyR.
Open Scope R_scope.

(** The accepted points, latest first, followed by the initial one. *)
Definition apt (a : astep R) : R * list R := (a_t a, a_y a).
Definition points (t0 : R) (y0 : list R) (tr : list (event R)) : list (R * list R) :=
  map apt (steps tr) ++ [(t0, y0)].

(** Some error test failed before the first accepted step. *)
Fixpoint early_fail (tr : list (event R)) : bool :=
  match tr with
  | [] => false
  | e :: past => early_fail past || match steps past with [] => is_fail e | _ => false end
  end.

(** [p] is a polynomial of degree at most [k] which takes the values of
    component [x] at the latest [k + 1] points.  The initial value counts
    unless an error test failed before the first accepted step. *)
Definition interpolates (t0 : R) (y0 : list R) (tr : list (event R)) (k x : nat) (p : list R) : Prop :=
  (length p <= k + 1)%nat /\
  forall i ti yi, (i <= k)%nat -> nth_error (points t0 y0 tr) i = Some (ti, yi) ->
    (i < length (steps tr))%nat \/ early_fail tr = false -> peval p ti = nth x yi 0.

(** 1 + 1/2 + ... + 1/k, divided by h. *)
Definition lead_coeff (k : nat) (h : R) : R := rsum k (fun i => / INR (i + 1)) / h.

(** A residual call (t, y, y') of an attempt with step [h] and order [k]:
    y' - p'(t) = cj (y - p(t)) in each component, p being the polynomial
    through the latest k + 1 points (in the very first step, a line through the
    initial point). *)
Definition bdf_call (n : nat) (t0 : R) (y0 : list R) (e : event R) (past : list (event R)) : Prop :=
  match e with
  | CRes t y yp =>
      forall s h k, last_try past = Some (s, h, k) ->
        (1 <= k <= Nat.max 1 (length (steps past)))%nat /\
        forall x, (x < n)%nat -> exists p d,
          interpolates t0 y0 past k x p /\ derivable_pt_lim (peval p) t d /\
          nth x yp 0 = d + lead_coeff k h * (nth x y 0 - peval p t)
  | _ => True
  end.

(** Outside the start-up phase an order is raised only after k + 1 accepted
    steps of one size, k being the new order. *)
Definition const_raise (e : event R) (past : list (event R)) : Prop :=
  match e with
  | CTry _ _ k => forall a rest, steps past = a :: rest -> k = (a_k a + 1)%nat ->
      length (steps past) = k \/
      (k + 1 <= length (steps past))%nat /\
      forall i b, (i <= k)%nat -> nth_error (steps past) i = Some b -> a_h b = a_h a
  | _ => True
  end.

Lemma early_app evs tr : Forall (fun e => is_fail e = false) evs ->
  early_fail (evs ++ tr) = early_fail tr.
Proof.
  induction 1 as [|e evs He _ IH]; [reflexivity|]. cbn. rewrite IH, He.
  destruct (steps (evs ++ tr)); apply orb_false_r.
Qed.
