(** * PolyTop: the leading coefficient of an interpolating polynomial *)
Require Import List Arith Lia Reals Lra.
Import ListNotations.
Require Import Verif.RSum Verif.PolyR.
Open Scope R_scope.

Lemma nth_padd p : forall q i, nth i (padd p q) 0 = nth i p 0 + nth i q 0.
Proof.
  induction p as [|a p IH]; intros [|b q] [|i]; cbn; try lra. apply IH.
Qed.

Lemma nth_pscal c p : forall i, nth i (pscal c p) 0 = c * nth i p 0.
Proof. induction p as [|a p IH]; intros [|i]; cbn; try lra. apply IH. Qed.

Lemma nth_pshift a p i : nth (S i) (pshift a p) 0 = nth i p 0 - a * nth (S i) p 0.
Proof. unfold pshift. rewrite nth_padd, nth_pscal. cbn [nth]. ring. Qed.

(** A polynomial that vanishes everywhere has no coefficients but 0. *)
Lemma pzero_coef p : (forall x, peval p x = 0) -> forall i, nth i p 0 = 0.
Proof.
  induction p as [|a p IH]; intros H i; [destruct i; reflexivity|].
  assert (Ha : a = 0) by (specialize (H 0); cbn in H; lra).
  assert (Hp : forall x, peval p x = 0).
  { apply (pzero (length p) p (fun i => INR (S i)) (le_n _)).
    - intros k j _ _ Hne E. apply Hne. apply INR_eq in E. lia.
    - intros k _. specialize (H (INR (S k))). cbn [peval] in H.
      assert (INR (S k) <> 0) by (apply not_0_INR; lia).
      assert (E : INR (S k) * peval p (INR (S k)) = 0) by lra.
      apply Rmult_integral in E. destruct E as [E|E]; [contradiction|exact E]. }
  destruct i as [|i]; cbn [nth]; [exact Ha|apply IH; exact Hp].
Qed.

Lemma same_coef p q : (forall x, peval p x = peval q x) -> forall i, nth i p 0 = nth i q 0.
Proof.
  intros H i. pose proof (pzero_coef (padd p (pscal (-1) q))) as Z.
  specialize (Z ltac:(intros x; rewrite peval_add, peval_scal, H; ring) i).
  rewrite nth_padd, nth_pscal in Z. lra.
Qed.

Lemma rprod_lin_top k t : exists p, length p = S k /\ nth k p 0 = 1 /\ forall x, peval p x = rprod k (fun l => x - t l).
Proof.
  induction k as [|k (p & L & N & E)].
  - exists [1]. split; [reflexivity|]. split; [reflexivity|]. intros x. cbn. ring.
  - exists (pshift (t k) p). split; [rewrite length_pshift; lia|]. split.
    + rewrite nth_pshift, N, (nth_overflow p) by lia. ring.
    + intros x. rewrite peval_shift, E. cbn [rprod]. ring.
Qed.

Lemma npoly_top t y k : exists p, (length p <= k + 1)%nat /\ nth k p 0 = dd t y 0 k /\ forall s, peval p s = npoly t y k s.
Proof.
  destruct k as [|k].
  - exists [y O]. split; [cbn; lia|]. split; [reflexivity|]. intros s. unfold npoly. cbn. ring.
  - destruct (npoly_pol t y k) as (p & L & E). destruct (rprod_lin_top (S k) t) as (q & Lq & Nq & Eq).
    exists (padd p (pscal (dd t y 0 (S k)) q)).
    split; [rewrite length_padd, length_pscal; lia|]. split.
    + rewrite nth_padd, nth_pscal, Nq, (nth_overflow p) by lia. ring.
    + intros s. rewrite peval_add, peval_scal, E, Eq. unfold npoly.
      change (rsum (S (S k))) with (fun f => rsum (S k) f + f (S k)). cbv beta. ring.
Qed.

(** The leading coefficient is the divided difference. *)
Lemma through_top k t y p : distinct k t -> through k t y p -> nth k p 0 = dd t y 0 k.
Proof.
  intros D (L & P). destruct (npoly_top t y k) as (q & Lq & Nq & Eq). rewrite <- Nq.
  apply same_coef. intros x. apply (through_unique k t y p q D); [split; assumption|].
  split; [exact Lq|]. intros i Li. rewrite Eq. apply npoly_node; assumption.
Qed.
