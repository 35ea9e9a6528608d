(** * UnitsDense: the dense LU solver commutes with a change of units

    The matrix of the problem in other units is the old one with the columns
    divided by the units of the components, times the matrix that combines the
    equations.  The factors and the pivots differ in general; what the two
    solvers have in common is which systems they accept and their solutions. *)
Require Import List Arith Bool Reals Lia Lra FunctionalExtensionality.
Import ListNotations.
Require Import Verif.Base Verif.BaseFacts Verif.Scalar Verif.ScalarR Verif.RSum Verif.Dense Verif.DenseSpec Verif.DenseFacts
  Verif.DenseSolveR Verif.Norms Verif.Newton Verif.IdaState Verif.IdaNls Verif.Units Verif.UnitsRel Verif.UnitsSim.
Open Scope R_scope.

(** ** Before the first factorisation
    The solver holds a zero matrix; dividing by its diagonal gives 0 in the
    model (1/0 = 0 for Coq's reals). *)
Lemma backward_zero n (b : list R) : (1 <= n)%nat -> length b = n ->
  backward_subst (mkmat n n (fun _ _ => 0)) n b = Ret (vzero n).
Proof.
  intros Hn Lb. unfold backward_subst.
  assert (D : forall x : R, x / 0 = 0) by (intros x; unfold Rdiv; rewrite Rinv_0; ring).
  match goal with |- context [for_range_rev 1 n ?f b] =>
    destruct (for_range_rev_total (fun k b' => length b' = n /\ forall i, (k <= i < n)%nat -> nth i b' 0 = 0) 1 n f b)
      as (b1 & E1 & L1 & Z1) end; try lia.
  - split; [exact Lb|]. intros; lia.
  - intros k b' Hk (Lb' & Z). rewrite (aget_ret b' k 0) by lia. cbn [bind].
    rewrite mget_ret by (cbn; lia). cbn [bind elem]. rewrite aset_ret by lia. cbn [bind].
    rewrite (aget_ret _ k 0) by (rewrite BaseFacts.upd_length; lia). cbn [bind].
    change (sdiv (nth k b' 0) 0) with (nth k b' 0 / 0). rewrite D.
    apply (for_range_total (fun _ b'' => length b'' = n /\ forall i, (k <= i < n)%nat -> nth i b'' 0 = 0) 0); try lia.
    { rewrite BaseFacts.upd_length. split; [exact Lb'|]. intros i Hi. rewrite nth_upd.
      destruct (Nat.eqb_spec k i) as [->|Ne]; [|cbn [andb]; apply Z; lia].
      destruct (Nat.ltb_spec i (length b')); cbn [andb]; [reflexivity|lia]. }
    intros i b'' Hi (Lb'' & Z''). rewrite mget_ret by (cbn; lia). cbn [bind elem].
    rewrite (aget_ret b'' i 0) by lia. cbn [bind]. rewrite aset_ret by lia.
    eexists; split; [reflexivity|]. rewrite BaseFacts.upd_length. split; [exact Lb''|]. intros j Hj. rewrite nth_upd_neq by lia. apply Z''; lia.
  - rewrite E1. cbn [bind]. rewrite (aget_ret b1 0%nat 0) by lia. cbn [bind]. rewrite mget_ret by (cbn; lia). cbn [bind elem].
    rewrite aset_ret by lia. f_equal. change (sdiv (nth 0 b1 0) 0) with (nth 0 b1 0 / 0). rewrite D.
    apply (nth_ext _ _ 0 0); rewrite BaseFacts.upd_length; [unfold vzero; rewrite repeat_length; exact L1|].
    intros i Hi. unfold vzero. rewrite nth_repeat, nth_upd. destruct (Nat.eqb_spec 0 i) as [<-|Ne].
    + replace (0 <? length b1)%nat with true by (symmetry; apply Nat.ltb_lt; lia). reflexivity.
    + cbn [andb]. apply Z1. lia.
Qed.

Lemma solve_zero n (b : list R) tol : (1 <= n)%nat -> length b = n ->
  dense_solve (dense_new n) (mkmat n n (fun _ _ => 0)) b tol = Ret (vzero n).
Proof.
  intros Hn Lb. unfold dense_solve, dense_get_rs. cbn [ncols].
  destruct (permute_rhs_ret n (dense_new n) b) as (b1 & -> & L1).
  - intros k Hk. unfold dense_new in *. rewrite repeat_length in Hk. rewrite nth_repeat. lia.
  - unfold dense_new. rewrite repeat_length. lia.
  - cbn [bind]. destruct (forward_subst_ret (mkmat n n (fun _ _ => 0)) n b1) as (b2 & -> & L2); cbn [nrows ncols]; try lia.
    cbn [bind]. apply backward_zero; lia.
Qed.

(** ** After a factorisation *)
Section Solve.
Variable u : units.
Variable n : nat.
Hypothesis Hu : units_ok n u.
Notation m := (u_comp u).
Notation mix := (u_mix u).

Definition matrix_in (A A' : nat -> nat -> R) : Prop :=
  forall i j, A' i j = / m j * comb n mix (fun k => A k j) i.

Lemma m_ok j : m j <> 0. Proof. apply Hu. Qed.

(** Applying the new matrix to a vector in the new units. *)
Lemma apply_in A A' (x : nat -> R) i : matrix_in A A' -> (i < n)%nat ->
  rsum n (fun j => A' i j * (m j * x j)) = rsum n (fun k => mix i k * rsum n (fun j => A k j * x j)).
Proof.
  intros HA Hi. rewrite (rsum_ext n _ (fun j => rsum n (fun k => mix i k * (A k j * x j)))).
  - rewrite rsum_swap. apply rsum_ext. intros k _. apply rsum_scal.
  - intros j _. rewrite HA. unfold comb. apply Nat.ltb_lt in Hi. rewrite Hi.
    replace (/ m j * rsum n (fun k => mix i k * A k j) * (m j * x j))
      with ((m j * / m j) * (rsum n (fun k => mix i k * A k j) * x j)) by ring.
    rewrite Rinv_r, Rmult_1_l by apply m_ok. rewrite <- rsum_scal_r. apply rsum_ext. intros; ring.
Qed.

Lemma solves_in A A' x b : matrix_in A A' -> length x = n -> length b = n ->
  solves n A x b -> solves n A' (sv m x) (mv mix b).
Proof.
  intros HA Lx Lb Hs i Hi. change (nth i (mv mix b) 0) with (vget (mv mix b) i).
  rewrite mv_get by lia. rewrite Lb. rewrite (rsum_ext n _ (fun j => A' i j * (m j * nth j x 0))).
  - rewrite (apply_in A A' (fun j => nth j x 0) i HA Hi). apply rsum_ext. intros k Hk. rewrite (Hs k Hk). reflexivity.
  - intros j _. change (nth j (sv m x) 0) with (vget (sv m x) j). rewrite sv_get. reflexivity.
Qed.

(** The combinations can be undone. *)
Lemma mix_zero (v : nat -> R) : (forall i, (i < n)%nat -> rsum n (fun k => mix i k * v k) = 0) -> forall k, (k < n)%nat -> v k = 0.
Proof.
  intros Hv k Hk. rewrite <- (rsum_pick n k v Hk).
  rewrite (rsum_ext n _ (fun p => rsum n (fun q => u_unmix u k q * (mix q p * v p)))).
  - rewrite rsum_swap. apply rsum_0. intros q Hq. rewrite rsum_scal, (Hv q Hq). ring.
  - intros p Hp. destruct Hu as (_ & _ & H). rewrite <- (H k p Hk Hp), <- rsum_scal_r. apply rsum_ext. intros; ring.
Qed.

Lemma independent_in A A' : matrix_in A A' -> (independent_cols n n A <-> independent_cols n n A').
Proof.
  intros HA. split; intros Hi x Hx j Hj.
  - assert (Y : / m j * x j = 0).
    { apply (Hi (fun j => / m j * x j)); [|exact Hj]. apply mix_zero. intros i Hii.
      rewrite <- (apply_in A A' (fun j => / m j * x j) i HA Hii), <- (Hx i Hii). apply rsum_ext. intros k _.
      replace (m k * (/ m k * x k)) with ((m k * / m k) * x k) by ring. rewrite Rinv_r by apply m_ok. ring. }
    apply Rmult_integral in Y. destruct Y as [Y|Y]; [|exact Y]. destruct (Rinv_neq_0_compat _ (m_ok j) Y).
  - assert (Y : m j * x j = 0).
    { apply (Hi (fun j => m j * x j)); [|exact Hj]. intros i Hii. rewrite (apply_in A A' x i HA Hii). apply rsum_0.
      intros k Hk. rewrite (Hx k Hk). ring. }
    apply Rmult_integral in Y. destruct Y as [Y|Y]; [destruct (m_ok j Y)|exact Y].
Qed.

(** Either nothing was factored yet, or both hold the factors of the two
    forms of one matrix. *)
Definition RF (q q' : list nat * mat R) : Prop :=
  (length (fst q) = n /\ length (fst q') = n) /\
  ((q = (dense_new n, mkmat n n (fun _ _ => 0)) /\ q' = q) \/
   exists A A' p0 p0', length p0 = n /\ length p0' = n /\ matrix_in A A' /\
     dense_setup p0 (mkmat n n A) = Ret (q, Ok tt) /\ dense_setup p0' (mkmat n n A') = Ret (q', Ok tt)).

Theorem dense_solver_in : (0 < n)%nat -> solver_in u n (LSt := list nat) RF.
Proof.
  intros Hn. constructor.
  - assert (Ld : length (dense_new n) = n) by apply repeat_length.
    split; [split; exact Ld|]. left. split; reflexivity.
  - intros p M p' M' A A' ((L1 & L2) & _) HA. cbn [fst] in L1, L2. cbn [ls_setup DenseLS].
    destruct (dense_setup_total n n A p (le_n n) L1) as (q & F & r & E & _ & _ & Lq & _).
    destruct (dense_setup_total n n A' p' (le_n n) L2) as (q' & F' & r' & E' & _ & _ & Lq' & _).
    rewrite E, E'. cbn [orel fst snd].
    pose proof (dense_setup_ok_iff n n A p (le_n n) L1) as I1. pose proof (dense_setup_ok_iff n n A' p' (le_n n) L2) as I2.
    pose proof (independent_in A A' HA) as I3.
    assert (X : r = Ok tt <-> r' = Ok tt).
    { split; intros ->.
      - assert (Y : independent_cols n n A') by (apply I3, I1; exists q, F; exact E).
        apply I2 in Y. destruct Y as (a & b & Y). congruence.
      - assert (Y : independent_cols n n A) by (apply I3, I2; exists q', F'; exact E').
        apply I1 in Y. destruct Y as (a & b & Y). congruence. }
    split; [exact X|]. intros Ok1. pose proof (proj1 X Ok1) as Ok2. subst r r'.
    split; [split; [exact Lq|exact Lq']|]. right. exists A, A', p, p'.
    split; [exact L1|]. split; [exact L2|]. split; [exact HA|]. split; [exact E|exact E'].
  - intros. split; [reflexivity|split; [reflexivity|left; reflexivity]].
  - intros p M p' M' b tol (_ & [(E & E')|(A & A' & p0 & p0' & L1 & L2 & HA & E & E')]) Lb; cbn [ls_solve DenseLS].
    + injection E as -> ->. injection E' as -> ->. rewrite !solve_zero by (rewrite ?mv_length; lia).
      cbn [bind orel fst snd]. rewrite sv_zero. reflexivity.
    + destruct (dense_solve_correct n A p0 M p b tol Hn L1 Lb E) as (x & -> & Lx & Sx).
      destruct (dense_solve_correct n A' p0' M' p' (mv mix b) tol Hn L2 (eq_trans (mv_length _ _) Lb) E') as (x' & -> & Lx' & Sx').
      cbn [bind orel fst snd]. f_equal.
      apply (dense_solution_unique n A' p0' M' p' (mv mix b) _ _ L2 Lx'); [rewrite sv_length; exact Lx|exact E'|exact Sx'|].
      apply (solves_in A A'); assumption.
Qed.
End Solve.

Definition same_equations (i k : nat) : R := if (i =? k)%nat then 1 else 0.

(** Without a change of the units of the components and of the equations every
    linear solver qualifies (times may still be measured differently). *)
Theorem any_solver_in L n {LSt} {LS : LSolver R LSt} :
  solver_in (mkunits L (fun _ => 1) same_equations same_equations) n (eq (A := LSt * mat R)).
Proof.
  constructor.
  - reflexivity.
  - intros p M p' M' f f' E Hf. injection E as <- <-.
    assert (Ef : f' = f).
    { apply functional_extensionality. intros i.
      apply functional_extensionality. intros j. rewrite Hf. cbn [u_comp u_mix]. rewrite Rinv_1, Rmult_1_l.
      unfold comb. destruct (Nat.ltb_spec i n) as [Hi|_]; [|reflexivity]. unfold same_equations. exact (rsum_pick n i (fun k => f k j) Hi). }
    rewrite Ef. eapply orel_mono; [apply orel_eq|]. intros x x' <-. split; [reflexivity|]. intros _. reflexivity.
  - intros p M p' M' E. injection E as <- <-. split; [reflexivity|split; [reflexivity|]]. right. intros b Lb. cbn [u_comp u_mix].
    rewrite (sv_id _ b) by reflexivity. exact (mv_id n b Lb).
  - intros p M p' M' b tol E Lb. injection E as <- <-. cbn [u_comp u_mix]. replace (mv same_equations b) with b by (symmetry; exact (mv_id n b Lb)).
    eapply orel_mono; [apply orel_eq|]. intros (x & r) x' <-. rewrite (sv_id _ x) by reflexivity. reflexivity.
Qed.
