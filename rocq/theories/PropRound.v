(** * PropRound: property C81 (crates/linear/src/dense.rs)

    The dense solver in arithmetic with rounding.  [ScalarRnd rnd] rounds the
    exact result of every operation by [rnd] (RoundR.v); the only thing assumed
    of [rnd] is a relative error of at most [u].  [rnd53] is the rounding of f64
    without the limits of the exponent range, so the theorems hold for the code
    as long as nothing overflows or underflows.  [row_of], [Lpart], [Upart],
    [dependent_cols], [independent_cols], [solves] are the notions of DenseSpec.v
    over exact real numbers. *)
Require Import List Arith Lia Reals Lra Psatz.
Import ListNotations.
Require Import Verif.Base Verif.Scalar Verif.ScalarR Verif.RoundR Verif.Dense Verif.RSum Verif.DenseSpec
  Verif.DenseFacts Verif.DenseR Verif.DenseSolveR Verif.DenseRnd.
Open Scope R_scope.

(** The code run with rounding [rnd]. *)
Definition setup_rnd (rnd : R -> R) (piv0 : list nat) (a : mat R) := @dense_setup R (ScalarRnd rnd) piv0 a.
Definition solve_rnd (rnd : R -> R) (piv : list nat) (a : mat R) (b : list R) (tol : R) :=
  @dense_solve R (ScalarRnd rnd) piv a b tol.

Section Bounds.
Variables (u : R) (rnd : R -> R).
Hypothesis Hr : rounding u rnd.

Lemma pow_growth i j : (i <= j)%nat -> growth u ^ i <= growth u ^ j.
Proof. intros H. apply Rle_pow; [exact (growth_ge_1 u rnd Hr)|exact H]. Qed.

Lemma q_pow i j : (i <= j)%nat -> (/ (1 - u)) ^ i <= (/ (1 - u)) ^ j.
Proof. intros H. apply Rle_pow; [exact (q_ge_1 u rnd Hr)|exact H]. Qed.

Lemma sum_LU m n A k F piv M :
  (k <= n)%nat -> (n <= m)%nat -> rnd_inv u m n A k F piv ->
  (forall i j, (i < m)%nat -> (j < n)%nat -> Rabs (A i j) <= M) ->
  forall i j, (i < m)%nat -> (j < n)%nat ->
    rsum k (fun p => Rabs (Lpart F i p) * Rabs (Upart F p j)) <= INR n * ((/ (1 - u)) ^ 2 * growth u ^ (n - 1) * M).
Proof.
  intros Hk Hmn (_ & _ & Hmul & _ & Hg) HM i j Hi Hj.
  pose proof (q_ge_1 u rnd Hr) as Hq. pose proof (growth_ge_1 u rnd Hr) as Hg1.
  assert (M0 : 0 <= M) by (pose proof (HM i j Hi Hj); pose proof (Rabs_pos (A i j)); lra).
  assert (Hc : 0 <= (/ (1 - u)) ^ 2 * growth u ^ (n - 1) * M).
  { apply Rmult_le_pos; [|exact M0]. apply Rmult_le_pos; apply pow_le; lra. }
  apply Rle_trans with (INR k * ((/ (1 - u)) ^ 2 * growth u ^ (n - 1) * M)).
  2:{ apply Rmult_le_compat_r; [exact Hc|]. apply le_INR. exact Hk. }
  rewrite <- rsum_const. apply rsum_le. intros p Hp. rewrite Rmult_assoc.
  assert (Q1 : 1 <= (/ (1 - u)) ^ 2) by (apply pow_R1_Rle; exact Hq).
  apply Rmult_le_compat; try apply Rabs_pos.
  - unfold Lpart. destruct (p <? i)%nat eqn:E1.
    + apply Nat.ltb_lt in E1. apply Hmul; lia.
    + destruct (p =? i)%nat; [rewrite Rabs_R1|rewrite Rabs_R0]; lra.
  - unfold Upart. destruct (p <=? j)%nat eqn:E1.
    + apply Nat.leb_le in E1. eapply Rle_trans; [apply (Hg M HM p j); lia|].
      apply Rmult_le_compat_r; [exact M0|]. apply pow_growth. lia.
    + rewrite Rabs_R0. apply Rmult_le_pos; [apply pow_le; lra|exact M0].
Qed.
End Bounds.

(** The computed factors multiply to the rows of the matrix, up to rounding
    errors; multipliers and pivot rows do not grow more than partial pivoting
    allows. *)
Theorem C81_rounded_factors : forall u rnd m n (A : nat -> nat -> R) piv0 piv F,
  rounding u rnd -> INR (n + 1) * u < 1 ->
  (n <= m)%nat -> length piv0 = n ->
  setup_rnd rnd piv0 (mkmat m n A) = Ret (piv, F, Ok tt) ->
  (forall i j, (i < m)%nat -> (j < n)%nat ->
     Rabs (A (row_of piv n i) j - rsum n (fun p => Lpart (elem F) i p * Upart (elem F) p j))
     <= gamma u (n + 1) * rsum n (fun p => Rabs (Lpart (elem F) i p) * Rabs (Upart (elem F) p j))) /\
  (forall i p, (p < n)%nat -> (p < i < m)%nat -> Rabs (elem F i p) <= (/ (1 - u)) ^ 2) /\
  (forall p, (p < n)%nat -> elem F p p <> 0) /\
  (forall M, (forall i j, (i < m)%nat -> (j < n)%nat -> Rabs (A i j) <= M) ->
     forall p j, (p <= j)%nat -> (j < n)%nat -> Rabs (elem F p j) <= growth u ^ p * M).
Proof.
  intros u rnd m n A piv0 piv F Hr Hu Hmn Lp E.
  destruct (rnd_factor u rnd Hr m n A Hmn piv0 F piv Lp E) as (_ & _ & _ & (_ & Hd & Hmul & _ & Hg)).
  split; [|split; [|split]].
  - intros i j Hi Hj. eapply Rle_trans; [exact (rnd_lu u rnd Hr m n A piv0 F piv Hmn Lp E i j Hi Hj)|].
    apply Rmult_le_compat_r; [apply rsum_nonneg; intros; apply Rmult_le_pos; apply Rabs_pos|].
    exact (gamma_bound u rnd Hr _ Hu).
  - intros i p Hp Hi. apply Hmul; lia.
  - exact Hd.
  - intros M HM p j Hp Hj. pose proof (Hg M HM p j ltac:(lia) Hj ltac:(lia)) as G. rewrite Nat.min_l in G by lia. exact G.
Qed.
Print Assumptions C81_rounded_factors.

(** The computed solution solves a system that differs from the given one by
    rounding errors only (backward stability, with the classical constant). *)
Theorem C81_backward_stable : forall u rnd n (A : nat -> nat -> R) piv0 F piv b tol,
  rounding u rnd -> INR (3 * n) * u < 1 ->
  (1 <= n)%nat -> length piv0 = n -> length b = n ->
  setup_rnd rnd piv0 (mkmat n n A) = Ret (piv, F, Ok tt) ->
  exists x dA, solve_rnd rnd piv F b tol = Ret x /\ length x = n /\
    solves n (fun i j => A i j + dA i j) x b /\
    (forall i j, (i < n)%nat -> (j < n)%nat ->
       Rabs (dA (row_of piv n i) j)
       <= gamma u (3 * n) * rsum n (fun p => Rabs (Lpart (elem F) i p) * Rabs (Upart (elem F) p j))) /\
    (forall M, (forall i j, (i < n)%nat -> (j < n)%nat -> Rabs (A i j) <= M) ->
       forall i j, (i < n)%nat -> (j < n)%nat ->
         Rabs (dA i j) <= gamma u (3 * n) * (INR n * ((/ (1 - u)) ^ 2 * growth u ^ (n - 1) * M))).
Proof.
  intros u rnd n A piv0 F piv b tol Hr Hu Hn Lp Lb E.
  destruct (rnd_factor u rnd Hr n n A (le_n n) piv0 F piv Lp E) as (_ & _ & _ & Inv).
  destruct (rnd_solve u rnd Hr n A piv0 F piv b tol Hn Lp Lb E) as (x & dA & Ex & Lx & Sx & Hd).
  exists x, dA. split; [exact Ex|]. split; [exact Lx|]. split; [exact Sx|].
  assert (Hd' : forall i j, (i < n)%nat -> (j < n)%nat -> Rabs (dA (row_of piv n i) j)
       <= gamma u (3 * n) * rsum n (fun p => Rabs (Lpart (elem F) i p) * Rabs (Upart (elem F) p j))).
  { intros i j Hi Hj. eapply Rle_trans; [exact (Hd i j Hi Hj)|].
    apply Rmult_le_compat_r; [apply rsum_nonneg; intros; apply Rmult_le_pos; apply Rabs_pos|].
    exact (gamma_bound u rnd Hr _ Hu). }
  split; [exact Hd'|]. intros M HM r j Hri Hj.
  assert (Hpv : forall p, (p < n)%nat -> (p <= nth p piv 0 < n)%nat) by apply Inv.
  destruct (row_of_onto piv n n (le_n n) Hpv r Hri) as (i & Hi & <-).
  eapply Rle_trans; [exact (Hd' i j Hi Hj)|]. apply Rmult_le_compat_l.
  - destruct (u_range u rnd Hr) as (U0 & _). unfold gamma. apply Rmult_le_pos; [apply Rmult_le_pos; [apply pos_INR|exact U0]|].
    left. apply Rinv_0_lt_compat. lra.
  - apply (sum_LU u rnd Hr n n A n (elem F) piv M (le_n n) (le_n n) Inv HM i j Hi Hj).
Qed.
Print Assumptions C81_backward_stable.

(** A matrix is refused at column [c] only if rounding errors can make its first
    [c] columns dependent. *)
Theorem C81_refusal_near_dependent : forall u rnd m n (A : nat -> nat -> R) piv0 piv F c M,
  rounding u rnd -> INR (n + 1) * u < 1 ->
  (n <= m)%nat -> length piv0 = n ->
  (forall i j, (i < m)%nat -> (j < n)%nat -> Rabs (A i j) <= M) ->
  setup_rnd rnd piv0 (mkmat m n A) = Ret (piv, F, Err c) ->
  (1 <= c <= n)%nat /\ exists dA, dependent_cols m c (fun i j => A i j + dA i j) /\
    forall i j, (i < m)%nat -> (j < n)%nat ->
      Rabs (dA i j) <= gamma u (n + 1) * (INR n * ((/ (1 - u)) ^ 2 * growth u ^ (n - 1) * M)).
Proof.
  intros u rnd m n A piv0 piv F c M Hr Hu Hmn Lp HM E.
  destruct (rnd_error u rnd Hr m n A Hmn piv0 F piv c Lp E) as (k & Hk & -> & Inv & Hz).
  split; [lia|]. destruct (rnd_dependent u rnd Hr m n A Hmn k (elem F) piv Hk Inv Hz) as (dA & Hdep & Hd).
  exists dA. split; [exact Hdep|]. intros r j Hri Hj.
  assert (Hpv : forall p, (p < k)%nat -> (p <= nth p piv 0 < m)%nat) by apply Inv.
  destruct (row_of_onto piv m k ltac:(lia) Hpv r Hri) as (i & Hi & <-).
  eapply Rle_trans; [exact (Hd i j Hi Hj)|].
  pose proof (q_pow u rnd Hr (k + 1) (n + 1) ltac:(lia)) as Q.
  pose proof (gamma_bound u rnd Hr _ Hu) as G.
  assert (Q1 : 1 <= (/ (1 - u)) ^ (k + 1)) by (apply pow_R1_Rle; exact (q_ge_1 u rnd Hr)).
  apply Rmult_le_compat; [lra| |lra|].
  - apply rsum_nonneg. intros. apply Rmult_le_pos; apply Rabs_pos.
  - apply (sum_LU u rnd Hr m n A k (elem F) piv M ltac:(lia) Hmn Inv HM i j Hi Hj).
Qed.
Print Assumptions C81_refusal_near_dependent.

(** Hence a matrix whose columns stay independent under changes of the size of
    rounding errors is always accepted. *)
Theorem C81_well_conditioned_accepted : forall u rnd m n (A : nat -> nat -> R) piv0 M,
  rounding u rnd -> INR (n + 1) * u < 1 ->
  (n <= m)%nat -> length piv0 = n ->
  (forall i j, (i < m)%nat -> (j < n)%nat -> Rabs (A i j) <= M) ->
  (forall dA, (forall i j, (i < m)%nat -> (j < n)%nat ->
      Rabs (dA i j) <= gamma u (n + 1) * (INR n * ((/ (1 - u)) ^ 2 * growth u ^ (n - 1) * M))) ->
     independent_cols m n (fun i j => A i j + dA i j)) ->
  exists piv F, setup_rnd rnd piv0 (mkmat m n A) = Ret (piv, F, Ok tt).
Proof.
  intros u rnd m n A piv0 M Hr Hu Hmn Lp HM Hind.
  destruct (@dense_setup_total R (ScalarRnd rnd) m n A piv0 Hmn Lp) as (piv & F & r & E & _).
  destruct r as [[]|c]; [exists piv, F; exact E|exfalso].
  destruct (C81_refusal_near_dependent u rnd m n A piv0 piv F c M Hr Hu Hmn Lp HM E) as (Hc & dA & Hdep & Hd).
  apply (dependent_not_independent _ _ _ Hdep). apply (independent_prefix m n c); [lia|]. apply Hind. exact Hd.
Qed.
Print Assumptions C81_well_conditioned_accepted.

(** A matrix that needs a row swap and a division that is not exact, in f64
    precision. *)
Definition ex22r (i j : nat) : R :=
  match i, j with O, O => 1 | O, _ => 2 | _, O => 3 | _, _ => 4 end.

Example C81_hypotheses_met :
  rounding (/ 9007199254740992) rnd53 /\ INR (3 * 2) * / 9007199254740992 < 1 /\
  exists piv F, setup_rnd rnd53 [0; 0]%nat (mkmat 2 2 ex22r) = Ret (piv, F, Ok tt).
Proof.
  split; [exact rnd53_rounding|]. split; [cbn; lra|].
  apply (C81_well_conditioned_accepted (/ 9007199254740992) rnd53 2 2 ex22r [0; 0]%nat 4 rnd53_rounding); auto.
  - cbn. lra.
  - intros [|[|i]] [|[|j]] Hi Hj; try lia; cbn; rewrite Rabs_right; lra.
  - intros dA Hd x Hx.
    assert (HK : gamma (/ 9007199254740992) (2 + 1) * (INR 2 * ((/ (1 - / 9007199254740992)) ^ 2 * growth (/ 9007199254740992) ^ (2 - 1) * 4)) <= / 10).
    { unfold gamma, growth. cbn [Nat.add Nat.sub pow INR]. 
      assert (Hq : 1 <= / (1 - / 9007199254740992) <= 2).
      { split; [apply (q_ge_1 _ rnd53 rnd53_rounding)|]. rewrite <- (Rinv_inv 2). apply Rinv_le_contravar; lra. }
      set (q := / (1 - / 9007199254740992)) in *.
      assert (Hg : (1 + 1 + 1) * / 9007199254740992 / (1 - (1 + 1 + 1) * / 9007199254740992) <= / 1000000).
      { apply Rmult_le_reg_r with (1 - (1 + 1 + 1) * / 9007199254740992); [lra|]. field_simplify; lra. }
      assert (Hb : 0 <= (1 + 1) * (q * (q * 1) * (q * (1 + q * (q * (q * 1))) * 1) * 4) <= 1000).
      { assert (A1 : 1 <= q * (q * 1) <= 4) by nra. assert (A2 : 1 <= q * (q * (q * 1)) <= 8) by nra.
        assert (A3 : 0 <= q * (1 + q * (q * (q * 1))) <= 18) by nra. nra. }
      assert (Hg0 : 0 <= (1 + 1 + 1) * / 9007199254740992 / (1 - (1 + 1 + 1) * / 9007199254740992)).
      { apply Rmult_le_pos; [lra|]. left. apply Rinv_0_lt_compat. lra. }
      nra. }
    assert (D : forall i j, (i < 2)%nat -> (j < 2)%nat -> - / 10 <= dA i j <= / 10).
    { intros i j Hi Hj. assert (B : Rabs (dA i j) <= / 10) by (eapply Rle_trans; [apply Hd; assumption|exact HK]).
      unfold Rabs in B. destruct (Rcase_abs (dA i j)); lra. }
    pose proof (D 0 0 ltac:(lia) ltac:(lia))%nat as D00. pose proof (D 0 1 ltac:(lia) ltac:(lia))%nat as D01.
    pose proof (D 1 0 ltac:(lia) ltac:(lia))%nat as D10. pose proof (D 1 1 ltac:(lia) ltac:(lia))%nat as D11.
    pose proof (Hx 0%nat ltac:(lia)) as X0. pose proof (Hx 1%nat ltac:(lia)) as X1. cbn in X0, X1.
    set (a := dA 0%nat 0%nat) in *. set (b := dA 0%nat 1%nat) in *. set (c := dA 1%nat 0%nat) in *. set (d := dA 1%nat 1%nat) in *.
    set (x0 := x 0%nat) in *. set (x1 := x 1%nat) in *.
    assert (Det : (1 + a) * (4 + d) - (2 + b) * (3 + c) <> 0) by nra.
    assert (E0 : ((1 + a) * (4 + d) - (2 + b) * (3 + c)) * x0 = 0).
    { replace (((1 + a) * (4 + d) - (2 + b) * (3 + c)) * x0)
        with ((4 + d) * (0 + (1 + a) * x0 + (2 + b) * x1) - (2 + b) * (0 + (3 + c) * x0 + (4 + d) * x1)) by ring.
      rewrite X0, X1. ring. }
    assert (E1 : ((1 + a) * (4 + d) - (2 + b) * (3 + c)) * x1 = 0).
    { replace (((1 + a) * (4 + d) - (2 + b) * (3 + c)) * x1)
        with ((1 + a) * (0 + (3 + c) * x0 + (4 + d) * x1) - (3 + c) * (0 + (1 + a) * x0 + (2 + b) * x1)) by ring.
      rewrite X0, X1. ring. }
    intros [|[|j]] Hj; [| |lia]; [fold x0|fold x1];
      match goal with |- ?v = 0 => destruct (Rmult_integral _ v ltac:(eassumption)); [contradiction|assumption] end.
Qed.

(** A matrix of rank one: refused, and its columns are dependent. *)
Example C81_refusal_hypotheses_met :
  exists piv F, setup_rnd rnd53 [0; 0]%nat (mkmat 2 2 (fun _ _ => 0)) = Ret (piv, F, Err 1%nat).
Proof.
  destruct (rf_step_ret (H:=ScalarRnd rnd53) (mkmat 2 2 (fun _ _ => 0)) [0; 0]%nat 0%nat) as (l & _ & _ & Hs); cbn; try lia.
  cbn [elem] in Hs.
  replace (@seqb R (ScalarRnd rnd53) 0 (@szero R (ScalarRnd rnd53))) with true in Hs by (symmetry; apply Reqb_true; reflexivity).
  exists (upd [0; 0]%nat 0 l), (mkmat 2 2 (fun _ _ => 0)).
  unfold setup_rnd, dense_setup, dense_get_rf. cbn [ncols nrows Nat.leb rf_loop]. cbn [Nat.sub rf_loop].
  rewrite Hs. reflexivity.
Qed.
