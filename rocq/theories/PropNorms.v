(** * PropNorms: properties C13-C15 (src/norm_rms.rs, src/tol_control.rs,
    crates/nonlinear/src/norm_wrms.rs) *)
Require Import List Arith Lia Reals Lra.
Import ListNotations.
Require Import Verif.Base Verif.Scalar Verif.ScalarR Verif.Norms Verif.RSum Verif.NormsR.
Open Scope R_scope.

(** [norm_wrms] computes the textbook expression. *)
Theorem C13_norm_wrms_formula : forall x w : list R,
  norm_wrms x w =
  sqrt (rsum (length x) (fun i => (nth i x 0 * nth i w 0) * (nth i x 0 * nth i w 0)) / INR (length x)).
Proof. exact norm_wrms_eq. Qed.
Print Assumptions C13_norm_wrms_formula.

Theorem C13_norm_wrms_is_a_norm : forall (x y w : list R) (c : R),
  (1 <= length x)%nat -> length y = length x ->
  0 <= norm_wrms x w /\
  norm_wrms (map (Rmult c) x) w = Rabs c * norm_wrms x w /\
  norm_wrms (map (fun p => fst p + snd p) (combine x y)) w <= norm_wrms x w + norm_wrms y w /\
  (norm_wrms x w = 0 <-> forall i, (i < length x)%nat -> nth i x 0 * nth i w 0 = 0) /\
  (forall i, (i < length x)%nat ->
     Rabs (nth i x 0 * nth i w 0) <= sqrt (INR (length x)) * norm_wrms x w).
Proof. exact norm_axioms. Qed.
Print Assumptions C13_norm_wrms_is_a_norm.
Example C13_hypotheses_met : (1 <= length [1; -2]%R)%nat /\ length [3; 4] = length [1; -2]%R.
Proof. cbn. lia. Qed.

(** Any scalar: the two implementations are the same function. *)
Theorem C13_norm_implementations_agree : forall (T : Type) (Sc : Scalar T) (x w : list T),
  norm_wrms_na x w = norm_wrms x w.
Proof. exact @norm_wrms_na_eq. Qed.
Print Assumptions C13_norm_implementations_agree.

Theorem C14_masked_norm : forall (x w : list R) (id : list bool),
  (1 <= length x)%nat -> length id = length x ->
  norm_wrms_masked x w id = norm_wrms (mask_vec id x) w /\
  norm_wrms_masked x w id <= norm_wrms x w /\
  (forall x', length x' = length x ->
     (forall i, (i < length x)%nat -> nth i id false = true -> nth i x' 0 = nth i x 0) ->
     norm_wrms_masked x' w id = norm_wrms_masked x w id).
Proof. exact masked_norm. Qed.
Print Assumptions C14_masked_norm.
Example C14_hypotheses_met : (1 <= length [1; -2]%R)%nat /\ length [true; false] = length [1; -2]%R.
Proof. cbn. lia. Qed.

(** [Ida::wrms_norm] selects between the two. *)
Theorem C14_wrms_norm_selects : forall (id : list bool) (x w : list R),
  wrms_norm id x w true = norm_wrms_masked x w id /\ wrms_norm id x w false = norm_wrms x w.
Proof. exact wrms_norm_cases. Qed.
Print Assumptions C14_wrms_norm_selects.

Theorem C15_ewt_scalar_tolerance : forall rtol atol (y : list R),
  0 <= rtol -> 0 < atol ->
  length (ewt_set_ss rtol atol y) = length y /\
  forall i, (i < length y)%nat ->
    nth i (ewt_set_ss rtol atol y) 0 = 1 / (rtol * Rabs (nth i y 0) + atol) /\
    0 < nth i (ewt_set_ss rtol atol y) 0.
Proof. exact ewt_ss_spec. Qed.
Print Assumptions C15_ewt_scalar_tolerance.

Theorem C15_ewt_vector_tolerance : forall rtol (atol y : list R),
  0 <= rtol -> length atol = length y -> (forall i, (i < length y)%nat -> 0 < nth i atol 0) ->
  length (ewt_set_sv rtol atol y) = length y /\
  forall i, (i < length y)%nat ->
    nth i (ewt_set_sv rtol atol y) 0 = 1 / (rtol * Rabs (nth i y 0) + nth i atol 0) /\
    0 < nth i (ewt_set_sv rtol atol y) 0.
Proof. exact ewt_sv_spec. Qed.
Print Assumptions C15_ewt_vector_tolerance.

Theorem C15_within_scalar_tolerance : forall rtol atol (y e : list R),
  0 <= rtol -> 0 < atol -> length e = length y -> (1 <= length y)%nat ->
  (forall i, (i < length y)%nat -> Rabs (nth i e 0) <= rtol * Rabs (nth i y 0) + atol) ->
  norm_wrms e (ewt_set_ss rtol atol y) <= 1.
Proof. exact ewt_ss_norm. Qed.
Print Assumptions C15_within_scalar_tolerance.

Theorem C15_within_vector_tolerance : forall rtol (atol y e : list R),
  0 <= rtol -> length atol = length y -> (forall i, (i < length y)%nat -> 0 < nth i atol 0) ->
  length e = length y -> (1 <= length y)%nat ->
  (forall i, (i < length y)%nat -> Rabs (nth i e 0) <= rtol * Rabs (nth i y 0) + nth i atol 0) ->
  norm_wrms e (ewt_set_sv rtol atol y) <= 1.
Proof. exact ewt_sv_norm. Qed.
Print Assumptions C15_within_vector_tolerance.
Example C15_hypotheses_met :
  0 <= / 100 /\ (forall i, (i < length [5; 0])%nat -> 0 < nth i [/ 10; / 1000] 0) /\
  (forall i, (i < length [5; 0])%nat ->
     Rabs (nth i [/ 10; / 1000] 0) <= / 100 * Rabs (nth i [5; 0] 0) + nth i [/ 10; / 1000] 0).
Proof.
  split; [lra|]. split; intros [|[|i]] Hi; cbn in *; try lia; try lra;
    rewrite !Rabs_pos_eq by lra; lra.
Qed.
