(** * NormsR: the weighted RMS norm over exact reals *)
Require Import List Arith Bool Lia Reals Lra.
Import ListNotations.
Require Import Verif.Base Verif.Scalar Verif.ScalarR Verif.Norms Verif.BaseFacts Verif.RSum.
Open Scope R_scope.

(** The textbook definition, over functions. *)
Definition wrms (n : nat) (x w : nat -> R) : R :=
  sqrt (rsum n (fun i => (x i * w i) * (x i * w i)) / INR n).

Lemma fold_left_rsum n f a : fold_left Rplus (map f (seq 0 n)) a = a + rsum n f.
Proof.
  revert a; induction n as [|n IH]; intros a; [simpl; ring|].
  rewrite seq_S, map_app, fold_left_app, IH. simpl. ring.
Qed.

Lemma norm_wrms_eq (x w : list R) :
  norm_wrms x w = wrms (length x) (fun i => nth i x 0) (fun i => nth i w 0).
Proof. unfold norm_wrms, wrms. cbn. rewrite fold_left_rsum, Rplus_0_l. reflexivity. Qed.

Lemma norm_wrms_masked_eq (x w : list R) id :
  norm_wrms_masked x w id =
  wrms (length x) (fun i => if nth i id false then nth i x 0 else 0) (fun i => nth i w 0).
Proof.
  unfold norm_wrms_masked, wrms. cbn. rewrite fold_left_rsum, Rplus_0_l. f_equal. f_equal.
  apply rsum_ext. intros i _. unfold ssq, vget. cbn. destruct (nth i id false); ring.
Qed.

Lemma norm_wrms_na_eq {T} `{Scalar T} (x w : list T) : norm_wrms_na x w = norm_wrms x w.
Proof. unfold norm_wrms_na, norm_wrms. rewrite map_map. reflexivity. Qed.

Lemma rsum_sq_nonneg n f : 0 <= rsum n (fun i => f i * f i).
Proof. apply rsum_nonneg. intros i _. apply Rle_0_sqr. Qed.

Lemma rsum_sq_zero n f : rsum n (fun i => f i * f i) = 0 -> forall i, (i < n)%nat -> f i = 0.
Proof.
  intros Hs i Hi.
  assert (Hle := rsum_term_le n (fun i => f i * f i) i Hi (fun i _ => Rle_0_sqr (f i))).
  cbv beta in Hle. rewrite Hs in Hle. assert (Hp := Rle_0_sqr (f i)). unfold Rsqr in Hp.
  apply Rsqr_0_uniq. unfold Rsqr. lra.
Qed.

Lemma cauchy_schwarz n f g :
  rsum n (fun i => f i * g i) * rsum n (fun i => f i * g i) <=
  rsum n (fun i => f i * f i) * rsum n (fun i => g i * g i).
Proof.
  set (A := rsum n (fun i => f i * f i)). set (B := rsum n (fun i => f i * g i)).
  set (C := rsum n (fun i => g i * g i)).
  assert (HA : 0 <= A) by apply rsum_sq_nonneg.
  destruct (Req_dec A 0) as [E|E].
  - assert (Hz := rsum_sq_zero n f E).
    assert (EB : B = 0) by (apply rsum_0; intros i Hi; rewrite Hz by exact Hi; ring).
    rewrite EB, E. lra.
  - assert (Hq : 0 <= rsum n (fun i => (A * g i - B * f i) * (A * g i - B * f i)))
      by apply (rsum_sq_nonneg n (fun i => A * g i - B * f i)).
    rewrite (rsum_ext n _ (fun i => (A * A) * (g i * g i) - ((2 * A * B) * (f i * g i) - (B * B) * (f i * f i)))) in Hq
      by (intros; ring).
    rewrite rsum_minus, rsum_minus, !rsum_scal in Hq. fold A B C in Hq.
    assert (0 < A) by lra.
    apply Rmult_le_reg_l with A; [assumption|]. nra.
Qed.

Lemma minkowski n f g :
  sqrt (rsum n (fun i => (f i + g i) * (f i + g i))) <=
  sqrt (rsum n (fun i => f i * f i)) + sqrt (rsum n (fun i => g i * g i)).
Proof.
  set (A := rsum n (fun i => f i * f i)). set (C := rsum n (fun i => g i * g i)).
  set (B := rsum n (fun i => f i * g i)).
  assert (HA : 0 <= A) by apply rsum_sq_nonneg. assert (HC : 0 <= C) by apply rsum_sq_nonneg.
  assert (HB : B <= sqrt A * sqrt C).
  { rewrite <- sqrt_mult by auto. apply Rle_trans with (Rabs B); [apply Rle_abs|].
    rewrite <- sqrt_Rsqr_abs. apply sqrt_le_1_alt. exact (cauchy_schwarz n f g). }
  replace (rsum n (fun i => (f i + g i) * (f i + g i))) with (A + 2 * B + C).
  2:{ rewrite (rsum_ext n _ (fun i => f i * f i + (2 * (f i * g i) + g i * g i))) by (intros; ring).
      rewrite rsum_plus, rsum_plus, rsum_scal. unfold A, B, C. ring. }
  assert (HsA := sqrt_pos A). assert (HsC := sqrt_pos C).
  apply Rsqr_incr_0_var; [|lra]. rewrite Rsqr_sqrt.
  - unfold Rsqr. assert (EA := sqrt_sqrt A HA). assert (EC := sqrt_sqrt C HC). nra.
  - replace (A + 2 * B + C) with (rsum n (fun i => (f i + g i) * (f i + g i))); [apply rsum_sq_nonneg with (f := fun i => f i + g i)|].
    rewrite (rsum_ext n _ (fun i => f i * f i + (2 * (f i * g i) + g i * g i))) by (intros; ring).
    rewrite rsum_plus, rsum_plus, rsum_scal. unfold A, B, C. ring.
Qed.

Section Wrms.
Variable n : nat.
Hypothesis Hn : (1 <= n)%nat.

Lemma INR_pos : 0 < INR n.
Proof. apply lt_0_INR. lia. Qed.

Lemma wrms_nonneg x w : 0 <= wrms n x w.
Proof. apply sqrt_pos. Qed.

Lemma wrms_ext x x' w w' :
  (forall i, (i < n)%nat -> x i * w i = x' i * w' i) -> wrms n x w = wrms n x' w'.
Proof. intros E. unfold wrms. do 2 f_equal. apply rsum_ext. intros i Hi. rewrite E by exact Hi. reflexivity. Qed.

Lemma wrms_split x w : wrms n x w = sqrt (rsum n (fun i => (x i * w i) * (x i * w i))) / sqrt (INR n).
Proof. unfold wrms. apply sqrt_div; [apply (rsum_sq_nonneg n (fun i => x i * w i)) | exact INR_pos]. Qed.

Lemma wrms_scal c x w : wrms n (fun i => c * x i) w = Rabs c * wrms n x w.
Proof.
  unfold wrms.
  replace (rsum n (fun i => (c * x i * w i) * (c * x i * w i)) / INR n)
    with (Rsqr c * (rsum n (fun i => (x i * w i) * (x i * w i)) / INR n)).
  - rewrite sqrt_mult_alt by apply Rle_0_sqr. rewrite sqrt_Rsqr_abs. reflexivity.
  - rewrite (rsum_ext n (fun i => (c * x i * w i) * (c * x i * w i))
      (fun i => (c * c) * ((x i * w i) * (x i * w i)))) by (intros; ring).
    rewrite rsum_scal. unfold Rsqr. field. apply Rgt_not_eq, INR_pos.
Qed.

Lemma wrms_triangle x y w : wrms n (fun i => x i + y i) w <= wrms n x w + wrms n y w.
Proof.
  rewrite !wrms_split.
  assert (Hs : 0 < sqrt (INR n)) by (apply sqrt_lt_R0, INR_pos).
  assert (M := minkowski n (fun i => x i * w i) (fun i => y i * w i)).
  rewrite (rsum_ext n (fun i => ((x i + y i) * w i) * ((x i + y i) * w i))
    (fun i => (x i * w i + y i * w i) * (x i * w i + y i * w i))) by (intros; ring).
  unfold Rdiv. rewrite <- Rmult_plus_distr_r. apply Rmult_le_compat_r; [|exact M].
  left. apply Rinv_0_lt_compat. exact Hs.
Qed.

Lemma wrms_zero_iff x w : wrms n x w = 0 <-> forall i, (i < n)%nat -> x i * w i = 0.
Proof.
  split.
  - intros E. rewrite wrms_split in E. apply (rsum_sq_zero n (fun i => x i * w i)).
    assert (Hs : 0 < sqrt (INR n)) by (apply sqrt_lt_R0, INR_pos).
    apply sqrt_eq_0; [apply (rsum_sq_nonneg n (fun i => x i * w i))|].
    apply Rmult_integral in E. destruct E as [E|E]; [exact E|].
    exfalso. apply Rinv_neq_0_compat in E; [auto|lra].
  - intros Hz. unfold wrms. rewrite rsum_0.
    + unfold Rdiv. rewrite Rmult_0_l. apply sqrt_0.
    + intros i Hi. rewrite Hz by exact Hi. ring.
Qed.

Lemma wrms_component x w i : (i < n)%nat -> Rabs (x i * w i) <= sqrt (INR n) * wrms n x w.
Proof.
  intros Hi. rewrite wrms_split.
  assert (Hs : 0 < sqrt (INR n)) by (apply sqrt_lt_R0, INR_pos).
  replace (sqrt (INR n) * (sqrt (rsum n (fun i => (x i * w i) * (x i * w i))) / sqrt (INR n)))
    with (sqrt (rsum n (fun i => (x i * w i) * (x i * w i)))) by (field; lra).
  rewrite <- sqrt_Rsqr_abs. apply sqrt_le_1_alt. unfold Rsqr.
  apply (rsum_term_le n (fun i => (x i * w i) * (x i * w i))); auto.
  intros j _. apply Rle_0_sqr.
Qed.

Lemma wrms_le x w y v :
  (forall i, (i < n)%nat -> Rabs (x i * w i) <= Rabs (y i * v i)) -> wrms n x w <= wrms n y v.
Proof.
  intros Hle. unfold wrms. apply sqrt_le_1_alt. apply Rmult_le_compat_r.
  - left. apply Rinv_0_lt_compat, INR_pos.
  - apply rsum_le. intros i Hi. apply Rsqr_le_abs_1, Hle, Hi.
Qed.

Lemma wrms_le_bound x w b :
  0 <= b -> (forall i, (i < n)%nat -> Rabs (x i * w i) <= b) -> wrms n x w <= b.
Proof.
  intros Hb Hle. unfold wrms.
  rewrite <- (sqrt_Rsqr b Hb). apply sqrt_le_1_alt.
  apply Rmult_le_reg_r with (INR n); [exact INR_pos|].
  unfold Rdiv. rewrite Rmult_assoc, Rinv_l by apply Rgt_not_eq, INR_pos. rewrite Rmult_1_r.
  rewrite Rmult_comm, <- rsum_const. apply rsum_le. intros i Hi.
  apply Rsqr_le_abs_1. rewrite (Rabs_pos_eq b) by exact Hb. auto.
Qed.
End Wrms.

(** ** Statements about the model's functions *)

Lemma norm_axioms (x y w : list R) (c : R) :
  (1 <= length x)%nat -> length y = length x ->
  0 <= norm_wrms x w /\
  norm_wrms (map (Rmult c) x) w = Rabs c * norm_wrms x w /\
  norm_wrms (map (fun p => fst p + snd p) (combine x y)) w <= norm_wrms x w + norm_wrms y w /\
  (norm_wrms x w = 0 <-> forall i, (i < length x)%nat -> nth i x 0 * nth i w 0 = 0) /\
  (forall i, (i < length x)%nat ->
     Rabs (nth i x 0 * nth i w 0) <= sqrt (INR (length x)) * norm_wrms x w).
Proof.
  intros Hx Hy. rewrite !norm_wrms_eq.
  rewrite map_length. rewrite map_length, combine_length, Hy, Nat.min_id.
  split; [apply wrms_nonneg|]. split; [|split; [|split]].
  - rewrite <- wrms_scal by exact Hx. apply wrms_ext. intros i Hi. f_equal.
    rewrite (nth_indep _ 0 (c * 0)) by (rewrite map_length; exact Hi). apply map_nth.
  - rewrite <- Hy at 3. rewrite Hy.
    eapply Rle_trans; [|apply wrms_triangle; exact Hx]. right. apply wrms_ext. intros i Hi. f_equal.
    rewrite (nth_indep _ 0 (0 + 0)) by (rewrite map_length, combine_length, Hy, Nat.min_id; exact Hi).
    change (0 + 0) with ((fun p => fst p + snd p) (0, 0)). rewrite map_nth, combine_nth by auto. reflexivity.
  - apply wrms_zero_iff. exact Hx.
  - intros i Hi. apply (wrms_component (length x) Hx (fun i => nth i x 0) (fun i => nth i w 0) i Hi).
Qed.

(** x with the components where the mask is false replaced by zero. *)
Definition mask_vec (id : list bool) (x : list R) : list R :=
  map (fun p : bool * R => if fst p then snd p else 0) (combine id x).

Lemma nth_mask_vec id x i :
  length id = length x -> nth i (mask_vec id x) 0 = if nth i id false then nth i x 0 else 0.
Proof.
  intros L. unfold mask_vec.
  set (f := fun p : bool * R => if fst p then snd p else 0).
  change (nth i (map f (combine id x)) 0) with (nth i (map f (combine id x)) (f (false, 0))).
  rewrite map_nth, combine_nth by exact L. reflexivity.
Qed.

Lemma masked_norm (x w : list R) (id : list bool) :
  (1 <= length x)%nat -> length id = length x ->
  norm_wrms_masked x w id = norm_wrms (mask_vec id x) w /\
  norm_wrms_masked x w id <= norm_wrms x w /\
  (forall x', length x' = length x ->
     (forall i, (i < length x)%nat -> nth i id false = true -> nth i x' 0 = nth i x 0) ->
     norm_wrms_masked x' w id = norm_wrms_masked x w id).
Proof.
  intros Hx Hid. rewrite !norm_wrms_masked_eq, !norm_wrms_eq.
  assert (L : length (mask_vec id x) = length x)
    by (unfold mask_vec; rewrite map_length, combine_length; lia).
  rewrite L. split; [|split].
  - apply wrms_ext. intros i Hi. rewrite nth_mask_vec by exact Hid. reflexivity.
  - apply wrms_le; auto. intros i Hi. destruct (nth i id false); [lra|].
    rewrite Rmult_0_l, Rabs_R0. apply Rabs_pos.
  - intros x' L' Hx'. rewrite norm_wrms_masked_eq, L'. apply wrms_ext. intros i Hi.
    destruct (nth i id false) eqn:E; auto. rewrite Hx' by auto. reflexivity.
Qed.

Lemma wrms_norm_cases (id : list bool) (x w : list R) :
  wrms_norm id x w true = norm_wrms_masked x w id /\ wrms_norm id x w false = norm_wrms x w.
Proof. split; reflexivity. Qed.

(** ** Error weights *)
Lemma weight_pos rtol atol y : 0 <= rtol -> 0 < atol -> 0 < rtol * Rabs y + atol.
Proof. intros. assert (0 <= rtol * Rabs y) by (apply Rmult_le_pos; [lra | apply Rabs_pos]). lra. Qed.

Lemma ewt_ss_spec rtol atol (y : list R) :
  0 <= rtol -> 0 < atol ->
  length (ewt_set_ss rtol atol y) = length y /\
  forall i, (i < length y)%nat ->
    nth i (ewt_set_ss rtol atol y) 0 = 1 / (rtol * Rabs (nth i y 0) + atol) /\
    0 < nth i (ewt_set_ss rtol atol y) 0.
Proof.
  intros Hr Ha. unfold ewt_set_ss. rewrite map_length. split; auto. intros i Hi.
  set (f := fun y => srecip (rtol * sabs y + atol)%sc).
  rewrite (nth_indep _ 0 (f 0)) by (rewrite map_length; exact Hi).
  rewrite map_nth. unfold f, srecip. cbn. split; auto.
  assert (Hp := weight_pos rtol atol (nth i y 0) Hr Ha).
  unfold Rdiv. rewrite Rmult_1_l. apply Rinv_0_lt_compat. exact Hp.
Qed.

Lemma ewt_sv_spec rtol (atol y : list R) :
  0 <= rtol -> length atol = length y -> (forall i, (i < length y)%nat -> 0 < nth i atol 0) ->
  length (ewt_set_sv rtol atol y) = length y /\
  forall i, (i < length y)%nat ->
    nth i (ewt_set_sv rtol atol y) 0 = 1 / (rtol * Rabs (nth i y 0) + nth i atol 0) /\
    0 < nth i (ewt_set_sv rtol atol y) 0.
Proof.
  intros Hr La Ha. unfold ewt_set_sv. rewrite map_length, combine_length, La, Nat.min_id.
  split; auto. intros i Hi.
  set (f := fun p : R * R => srecip (rtol * sabs (fst p) + snd p)%sc).
  rewrite (nth_indep _ 0 (f (0, 0))) by (rewrite map_length, combine_length, La, Nat.min_id; exact Hi).
  rewrite map_nth, combine_nth by auto. unfold f, srecip. cbn. split; auto.
  assert (Hp := weight_pos rtol (nth i atol 0) (nth i y 0) Hr (Ha i Hi)).
  unfold Rdiv. rewrite Rmult_1_l. apply Rinv_0_lt_compat. exact Hp.
Qed.

(** Within tolerance in every component means norm at most one. *)
Lemma within_tolerance_norm (w e tolv : list R) :
  (1 <= length e)%nat ->
  (forall i, (i < length e)%nat -> 0 < nth i tolv 0 /\ nth i w 0 = 1 / nth i tolv 0 /\
                          Rabs (nth i e 0) <= nth i tolv 0) ->
  norm_wrms e w <= 1.
Proof.
  intros He Hw. rewrite norm_wrms_eq. apply wrms_le_bound; auto; [lra|].
  intros i Hi. destruct (Hw i Hi) as (Hp & -> & Hle).
  rewrite Rabs_mult. unfold Rdiv. rewrite Rmult_1_l, (Rabs_pos_eq (/ _)) by (left; apply Rinv_0_lt_compat; exact Hp).
  apply Rmult_le_reg_r with (nth i tolv 0); [exact Hp|]. rewrite Rmult_assoc, Rinv_l by lra. lra.
Qed.

Lemma ewt_ss_norm rtol atol (y e : list R) :
  0 <= rtol -> 0 < atol -> length e = length y -> (1 <= length y)%nat ->
  (forall i, (i < length y)%nat -> Rabs (nth i e 0) <= rtol * Rabs (nth i y 0) + atol) ->
  norm_wrms e (ewt_set_ss rtol atol y) <= 1.
Proof.
  intros Hr Ha Le Hy Hin.
  apply within_tolerance_norm with (tolv := map (fun v => rtol * Rabs v + atol) y); [lia|].
  intros i Hi. rewrite Le in Hi.
  assert (En : nth i (map (fun v => rtol * Rabs v + atol) y) 0 = rtol * Rabs (nth i y 0) + atol).
  { rewrite (nth_indep _ 0 ((fun v => rtol * Rabs v + atol) 0)) by (rewrite map_length; exact Hi).
    apply (map_nth (fun v => rtol * Rabs v + atol)). }
  rewrite En. split; [apply weight_pos; auto|]. split; [|auto].
  apply (proj2 (ewt_ss_spec rtol atol y Hr Ha) i Hi).
Qed.

Lemma ewt_sv_norm rtol (atol y e : list R) :
  0 <= rtol -> length atol = length y -> (forall i, (i < length y)%nat -> 0 < nth i atol 0) ->
  length e = length y -> (1 <= length y)%nat ->
  (forall i, (i < length y)%nat -> Rabs (nth i e 0) <= rtol * Rabs (nth i y 0) + nth i atol 0) ->
  norm_wrms e (ewt_set_sv rtol atol y) <= 1.
Proof.
  intros Hr La Ha Le Hy Hin.
  apply within_tolerance_norm
    with (tolv := vtab (length y) (fun i => rtol * Rabs (nth i y 0) + nth i atol 0)); [lia|].
  intros i Hi. rewrite Le in Hi. rewrite nth_vtab by exact Hi.
  split; [apply weight_pos; auto|]. split; [|auto].
  apply (proj2 (ewt_sv_spec rtol atol y Hr La Ha) i Hi).
Qed.
