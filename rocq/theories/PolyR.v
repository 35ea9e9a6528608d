(** * PolyR: polynomials, divided differences and interpolation over the reals *)
Require Import List Arith Lia Reals Lra.
Import ListNotations.
Require Import Verif.RSum.
Open Scope R_scope.

(** ** Polynomials *)

(** Given by the coefficients, constant term first. *)
Fixpoint peval (p : list R) (x : R) : R :=
  match p with [] => 0 | a :: q => a + x * peval q x end.

(** A polynomial of degree at most [k] through the points (t 0, y 0), ...,
    (t k, y k). *)
Definition through (k : nat) (t y : nat -> R) (p : list R) : Prop :=
  (length p <= k + 1)%nat /\ forall i, (i <= k)%nat -> peval p (t i) = y i.

Definition distinct (k : nat) (t : nat -> R) : Prop :=
  forall i j, (i <= k)%nat -> (j <= k)%nat -> i <> j -> t i <> t j.

Lemma pdivide p a : p <> [] -> exists q, S (length q) = length p /\
  forall x, peval p x = peval p a + (x - a) * peval q x.
Proof.
  induction p as [|b p IH]; [easy|]. intros _. destruct p as [|b' p'].
  - exists []. split; [reflexivity|]. intros x. cbn. ring.
  - destruct IH as (q & L & E); [easy|]. exists (peval (b' :: p') a :: q).
    split; [cbn [length] in *; lia|]. intros x.
    change (b + x * peval (b' :: p') x =
            b + a * peval (b' :: p') a + (x - a) * (peval (b' :: p') a + x * peval q x)).
    rewrite (E x). ring.
Qed.

(** A polynomial with more zeros than its degree vanishes everywhere. *)
Lemma pzero k : forall p t, (length p <= k)%nat ->
  (forall i j, (i < k)%nat -> (j < k)%nat -> i <> j -> t i <> t j) ->
  (forall i, (i < k)%nat -> peval p (t i) = 0) -> forall x, peval p x = 0.
Proof.
  induction k as [|k IH]; intros p t L D Z x.
  - destruct p; [reflexivity|cbn in L; lia].
  - destruct p as [|b p]; [reflexivity|].
    destruct (pdivide (b :: p) (t k)) as (q & Lq & E); [easy|].
    rewrite (E x). rewrite (Z k) by lia.
    rewrite (IH q t); [ring|lia|intros; apply D; lia|].
    intros i Hi. pose proof (E (t i)) as Ei. rewrite !Z in Ei by lia.
    assert (t i - t k <> 0) by (assert (t i <> t k) by (apply D; lia); lra).
    apply Rmult_eq_reg_l with (t i - t k); [lra|assumption].
Qed.

Fixpoint padd (p q : list R) : list R :=
  match p, q with
  | [], _ => q
  | _, [] => p
  | a :: p, b :: q => (a + b) :: padd p q
  end.
Definition pscal (c : R) (p : list R) : list R := map (Rmult c) p.
(** (x - a) p(x) *)
Definition pshift (a : R) (p : list R) : list R := padd (0 :: p) (pscal (- a) p).

Lemma peval_add p : forall q x, peval (padd p q) x = peval p x + peval q x.
Proof. induction p as [|a p IH]; intros [|b q] x; cbn; try rewrite IH; ring. Qed.
Lemma peval_scal c p x : peval (pscal c p) x = c * peval p x.
Proof. induction p as [|a p IH]; cbn; [ring|]. unfold pscal in IH. rewrite IH. ring. Qed.
Lemma peval_shift a p x : peval (pshift a p) x = (x - a) * peval p x.
Proof. unfold pshift. rewrite peval_add, peval_scal. cbn. ring. Qed.
Lemma length_padd p : forall q, length (padd p q) = Nat.max (length p) (length q).
Proof. induction p as [|a p IH]; intros [|b q]; cbn; try rewrite IH; reflexivity. Qed.
Lemma length_pscal c p : length (pscal c p) = length p.
Proof. apply map_length. Qed.
Lemma length_pshift a p : length (pshift a p) = S (length p).
Proof. unfold pshift. rewrite length_padd, length_pscal. cbn [length]. lia. Qed.

(** The interpolating polynomial is unique. *)
Lemma through_unique k t y p q : distinct k t -> through k t y p -> through k t y q ->
  forall x, peval p x = peval q x.
Proof.
  intros D (Lp & Ep) (Lq & Eq) x.
  assert (Z : peval (padd p (pscal (-1) q)) x = 0).
  { apply (pzero (k + 1) _ t); [rewrite length_padd, length_pscal; lia|intros; apply D; lia|].
    intros i Hi. rewrite peval_add, peval_scal, Ep, Eq by lia. ring. }
  rewrite peval_add, peval_scal in Z. lra.
Qed.

Lemma peval_derivable p x : exists d, derivable_pt_lim (peval p) x d.
Proof.
  induction p as [|a p (d & IH)].
  - exists 0. apply derivable_pt_lim_const.
  - exists (0 + (1 * peval p x + x * d)).
    apply (derivable_pt_lim_plus (fun _ => a) (fun x => x * peval p x)); [apply derivable_pt_lim_const|].
    apply (derivable_pt_lim_mult (fun x => x) (peval p)); [apply derivable_pt_lim_id|exact IH].
Qed.

(** Functions equal everywhere have the same derivative. *)
Lemma derivable_ext f g x d : (forall z, f z = g z) -> derivable_pt_lim f x d -> derivable_pt_lim g x d.
Proof.
  intros E D eps He. destruct (D eps He) as (dl & Hd). exists dl. intros h Hn Hh.
  rewrite <- !E. auto.
Qed.

(** ** Products of linear factors *)

Lemma rprod_lin_pol k t : exists p, length p = S k /\ forall x, peval p x = rprod k (fun l => x - t l).
Proof.
  induction k as [|k (p & L & E)].
  - exists [1]. split; [reflexivity|]. intros x. cbn. ring.
  - exists (pshift (t k) p). split; [rewrite length_pshift; lia|].
    intros x. rewrite peval_shift, E. cbn. ring.
Qed.

(** Derivative of a product of linear factors at a point where none vanishes. *)
Lemma rprod_lin_der k t x : (forall l, (l < k)%nat -> x - t l <> 0) ->
  derivable_pt_lim (fun s => rprod k (fun l => s - t l)) x
    (rprod k (fun l => x - t l) * rsum k (fun l => / (x - t l))).
Proof.
  induction k as [|k IH]; intros N.
  - cbn. replace (1 * 0) with 0 by ring. apply derivable_pt_lim_const.
  - cbn [rprod rsum].
    replace (rprod k (fun l => x - t l) * (x - t k) * (rsum k (fun l => / (x - t l)) + / (x - t k)))
      with (rprod k (fun l => x - t l) * rsum k (fun l => / (x - t l)) * (x - t k) +
            rprod k (fun l => x - t l) * 1)
      by (field; apply N; lia).
    apply (derivable_pt_lim_mult (fun s => rprod k (fun l => s - t l)) (fun s => s - t k)).
    + apply IH. intros; apply N; lia.
    + replace 1 with (1 - 0) by ring.
      apply (derivable_pt_lim_minus (fun s => s) (fun _ => t k));
        [apply derivable_pt_lim_id|apply derivable_pt_lim_const].
Qed.

Lemma rsum_der k (f : nat -> R -> R) (d : nat -> R) x :
  (forall i, (i < k)%nat -> derivable_pt_lim (f i) x (d i)) ->
  derivable_pt_lim (fun s => rsum k (fun i => f i s)) x (rsum k d).
Proof.
  induction k as [|k IH]; intros D; cbn.
  - apply derivable_pt_lim_const.
  - apply (derivable_pt_lim_plus (fun s => rsum k (fun i => f i s)) (f k));
      [apply IH; intros; apply D; lia|apply D; lia].
Qed.

(** ** Divided differences *)

Fixpoint dd (t y : nat -> R) (i k : nat) : R :=
  match k with
  | O => y i
  | S j => (dd t y i j - dd t y (S i) j) / (t i - t (i + S j)%nat)
  end.

Lemma dd_ext t y t' y' a b k : forall i,
  (forall l, (l <= k)%nat -> t (a + i + l)%nat = t' (b + i + l)%nat /\ y (a + i + l)%nat = y' (b + i + l)%nat) ->
  dd t y (a + i) k = dd t' y' (b + i) k.
Proof.
  induction k as [|k IH]; intros i E; cbn [dd].
  - destruct (E O) as (_ & E1); [lia|]. rewrite !Nat.add_0_r in E1. exact E1.
  - rewrite (IH i) by (intros l Hl; apply E; lia).
    replace (S (a + i)) with (a + S i)%nat by lia. replace (S (b + i)) with (b + S i)%nat by lia.
    rewrite (IH (S i)).
    + destruct (E O) as (E0 & _); [lia|]. rewrite !Nat.add_0_r in E0. rewrite E0.
      destruct (E (S k)) as (Ek & _); [lia|].
      replace (a + i + S k)%nat with (a + i + S k)%nat by lia. rewrite Ek. reflexivity.
    + intros l Hl. replace (a + S i + l)%nat with (a + i + S l)%nat by lia.
      replace (b + S i + l)%nat with (b + i + S l)%nat by lia. apply E. lia.
Qed.

(** Newton's polynomial of degree [k] through the points 0, ..., k. *)
Definition npoly (t y : nat -> R) (k : nat) (s : R) : R :=
  rsum (S k) (fun j => rprod j (fun l => s - t l) * dd t y 0 j).

Lemma dd_shift t y i d s : (forall j, (1 <= j <= d)%nat -> t i - t (i + j)%nat <> 0) ->
  rsum d (fun j => rprod j (fun l => s - t (S i + l)%nat) * dd t y (S i) j) =
  rsum (S d) (fun j => rprod j (fun l => s - t (i + l)%nat) * dd t y i j)
    - rprod d (fun l => s - t (S i + l)%nat) * dd t y i d.
Proof.
  intros D. induction d as [|d IH].
  - cbn. ring.
  - cbn [rsum] in *. rewrite IH by (intros; apply D; lia). clear IH.
    assert (Ed : dd t y (S i) d = dd t y i d - (t i - t (i + S d)%nat) * dd t y i (S d)).
    { cbn [dd]. field. apply D. lia. }
    rewrite Ed. cbn [rprod].
    assert (Ep : rprod d (fun l => s - t (i + l)%nat) * (s - t (i + d)%nat) =
                 (s - t i) * rprod d (fun l => s - t (S i + l)%nat)).
    { change (rprod (S d) (fun l => s - t (i + l)%nat) = (s - t i) * rprod d (fun l => s - t (S i + l)%nat)).
      rewrite rprod_first, Nat.add_0_r. f_equal. apply rprod_ext. intros l _.
      replace (i + S l)%nat with (S i + l)%nat by lia. reflexivity. }
    rewrite Ep. replace (S i + d)%nat with (i + S d)%nat by lia. ring.
Qed.

Lemma npoly_node t y k m : distinct k t -> (m <= k)%nat -> npoly t y k (t m) = y m.
Proof.
  intros D Hm.
  assert (G : forall d i, (i + d = m)%nat ->
    rsum (S d) (fun j => rprod j (fun l => t m - t (i + l)%nat) * dd t y i j) = y m).
  { induction d as [|d IH]; intros i E.
    - cbn. rewrite Nat.add_0_r in E. subst i. ring.
    - rewrite <- (IH (S i)) by lia.
      rewrite (dd_shift t y i (S d)).
      + replace (rprod (S d) (fun l => t m - t (S i + l)%nat)) with 0; [ring|].
        symmetry. apply rprod_zero with d; [lia|].
        replace (S i + d)%nat with m by lia. ring.
      + intros j Hj. assert (t i <> t (i + j)%nat) by (apply D; lia). lra. }
  unfold npoly. replace (S k) with (S m + (k - m))%nat by lia.
  rewrite rsum_split.
  transitivity (y m + 0); [|ring]. f_equal; [apply (G m O); lia|].
  apply rsum_0. intros j Hj.
  rewrite rprod_zero with (k := m); [ring|lia|ring].
Qed.

Lemma npoly_pol t y k : exists p, (length p <= k + 1)%nat /\ forall s, peval p s = npoly t y k s.
Proof.
  induction k as [|k (p & L & E)].
  - exists [y O]. split; [cbn; lia|]. intros s. unfold npoly. cbn. ring.
  - destruct (rprod_lin_pol (S k) t) as (q & Lq & Eq).
    exists (padd p (pscal (dd t y 0 (S k)) q)).
    split; [rewrite length_padd, length_pscal; lia|].
    intros s. rewrite peval_add, peval_scal, E, Eq. unfold npoly.
    change (rsum (S (S k))) with (fun f => rsum (S k) f + f (S k)). cbv beta. ring.
Qed.

(** Newton's polynomial is the interpolating one. *)
Lemma npoly_through t y k : distinct k t ->
  exists p, through k t y p /\ forall s, peval p s = npoly t y k s.
Proof.
  intros D. destruct (npoly_pol t y k) as (p & L & E). exists p. split; [split|].
  - exact L.
  - intros i Hi. rewrite E. apply npoly_node; assumption.
  - exact E.
Qed.

Lemma npoly_der t y k x : (forall l, (l < k)%nat -> x - t l <> 0) ->
  derivable_pt_lim (npoly t y k) x
    (rsum (S k) (fun j => rprod j (fun l => x - t l) * rsum j (fun l => / (x - t l)) * dd t y 0 j)).
Proof.
  intros N. unfold npoly.
  apply (rsum_der (S k) (fun j s => rprod j (fun l => s - t l) * dd t y 0 j)).
  intros j Hj.
  replace (rprod j (fun l => x - t l) * rsum j (fun l => / (x - t l)) * dd t y 0 j)
    with (rprod j (fun l => x - t l) * rsum j (fun l => / (x - t l)) * dd t y 0 j +
          rprod j (fun l => x - t l) * 0) by ring.
  apply (derivable_pt_lim_mult (fun s => rprod j (fun l => s - t l)) (fun _ => dd t y 0 j));
    [apply rprod_lin_der; intros; apply N; lia|apply derivable_pt_lim_const].
Qed.

(** The remainder after [j] terms, with a new point in front. *)
Definition consf {A} (a : A) (f : nat -> A) (i : nat) : A := match i with O => a | S l => f l end.

Lemma dd_cons t y x v i k : dd (consf x t) (consf v y) (S i) k = dd t y i k.
Proof.
  apply (dd_ext (consf x t) (consf v y) t y 1 0 k i). intros l _. split; reflexivity.
Qed.

Lemma remainder t y x v j : (forall l, (l < j)%nat -> x - t l <> 0) ->
  v = rsum j (fun i => rprod i (fun l => x - t l) * dd t y 0 i) +
      rprod j (fun l => x - t l) * dd (consf x t) (consf v y) 0 j.
Proof.
  induction j as [|j IH]; intros N.
  - cbn. ring.
  - rewrite IH at 1 by (intros; apply N; lia).
    cbn [rsum rprod]. rewrite Rplus_assoc. f_equal.
    cbn [dd]. rewrite dd_cons. cbn [consf Nat.add].
    assert (x - t j <> 0) by (apply N; lia). field. assumption.
Qed.
