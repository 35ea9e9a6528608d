(** * RSum: finite sums and products of reals *)
Require Import Arith Lia Reals Lra.
Open Scope R_scope.

Fixpoint rsum (n : nat) (f : nat -> R) : R :=
  match n with O => 0 | S k => rsum k f + f k end.

Fixpoint rprod (n : nat) (f : nat -> R) : R :=
  match n with O => 1 | S k => rprod k f * f k end.

Lemma rsum_ext n f g : (forall i, (i < n)%nat -> f i = g i) -> rsum n f = rsum n g.
Proof.
  induction n as [|n IH]; simpl; intros Hfg; auto.
  rewrite IH by (intros; apply Hfg; lia). rewrite Hfg by lia. reflexivity.
Qed.

Lemma rsum_0 n f : (forall i, (i < n)%nat -> f i = 0) -> rsum n f = 0.
Proof.
  induction n as [|n IH]; simpl; intros Hf; auto.
  rewrite IH by (intros; apply Hf; lia). rewrite Hf by lia. ring.
Qed.

Lemma rsum_plus n f g : rsum n (fun i => f i + g i) = rsum n f + rsum n g.
Proof. induction n as [|n IH]; simpl; [ring|]. rewrite IH. ring. Qed.

Lemma rsum_minus n f g : rsum n (fun i => f i - g i) = rsum n f - rsum n g.
Proof. induction n as [|n IH]; simpl; [ring|]. rewrite IH. ring. Qed.

Lemma rsum_scal n c f : rsum n (fun i => c * f i) = c * rsum n f.
Proof. induction n as [|n IH]; simpl; [ring|]. rewrite IH. ring. Qed.

Lemma rsum_scal_r n c f : rsum n (fun i => f i * c) = rsum n f * c.
Proof. induction n as [|n IH]; simpl; [ring|]. rewrite IH. ring. Qed.

Lemma rsum_split n m f : rsum (n + m) f = rsum n f + rsum m (fun i => f (n + i)%nat).
Proof.
  induction m as [|m IH]; simpl; [rewrite Nat.add_0_r; ring|].
  rewrite Nat.add_succ_r. simpl. rewrite IH. ring.
Qed.

Lemma rsum_first n f : rsum (S n) f = f O + rsum n (fun i => f (S i)).
Proof. induction n as [|n IH]; simpl; [ring|]. simpl in IH. rewrite IH. ring. Qed.

Lemma rsum_swap n m f :
  rsum n (fun i => rsum m (fun j => f i j)) = rsum m (fun j => rsum n (fun i => f i j)).
Proof.
  induction n as [|n IH]; simpl; [rewrite rsum_0; auto|].
  rewrite IH, <- rsum_plus. reflexivity.
Qed.

(** A sum with a single non-zero term. *)
Lemma rsum_single n k f :
  (k < n)%nat -> (forall i, (i < n)%nat -> i <> k -> f i = 0) -> rsum n f = f k.
Proof.
  induction n as [|n IH]; intros Hk Hf; [lia|]. simpl.
  destruct (Nat.eq_dec k n) as [->|Hne].
  - rewrite rsum_0; [ring|]. intros i Hi; apply Hf; lia.
  - rewrite IH by (try lia; intros; apply Hf; lia). rewrite (Hf n) by lia. ring.
Qed.

(** Cutting off a tail of zeros. *)
Lemma rsum_cut n m f :
  (m <= n)%nat -> (forall i, (m <= i < n)%nat -> f i = 0) -> rsum n f = rsum m f.
Proof.
  intros Hmn Hf. replace n with (m + (n - m))%nat by lia. rewrite rsum_split.
  rewrite (rsum_0 (n - m)); [ring|]. intros i Hi; apply Hf; lia.
Qed.

Lemma rsum_nonneg n f : (forall i, (i < n)%nat -> 0 <= f i) -> 0 <= rsum n f.
Proof.
  induction n as [|n IH]; simpl; intros Hf; [lra|].
  assert (0 <= rsum n f) by (apply IH; intros; apply Hf; lia).
  assert (0 <= f n) by (apply Hf; lia). lra.
Qed.

Lemma rsum_le n f g : (forall i, (i < n)%nat -> f i <= g i) -> rsum n f <= rsum n g.
Proof.
  induction n as [|n IH]; simpl; intros Hf; [lra|].
  assert (rsum n f <= rsum n g) by (apply IH; intros; apply Hf; lia).
  assert (f n <= g n) by (apply Hf; lia). lra.
Qed.

Lemma rsum_term_le n f k :
  (k < n)%nat -> (forall i, (i < n)%nat -> 0 <= f i) -> f k <= rsum n f.
Proof.
  induction n as [|n IH]; intros Hk Hf; [lia|]. simpl.
  assert (0 <= f n) by (apply Hf; lia).
  assert (0 <= rsum n f) by (apply rsum_nonneg; intros; apply Hf; lia).
  destruct (Nat.eq_dec k n) as [->|Hne]; [lra|].
  assert (f k <= rsum n f) by (apply IH; [lia | intros; apply Hf; lia]). lra.
Qed.

Lemma rsum_const n c : rsum n (fun _ => c) = INR n * c.
Proof. induction n as [|n IH]; [simpl; ring|]. rewrite S_INR. simpl. rewrite IH. ring. Qed.

Lemma rprod_ext n f g : (forall i, (i < n)%nat -> f i = g i) -> rprod n f = rprod n g.
Proof.
  induction n as [|n IH]; simpl; intros Hfg; auto.
  rewrite IH by (intros; apply Hfg; lia). rewrite Hfg by lia. reflexivity.
Qed.

Lemma rprod_mult n f g : rprod n (fun i => f i * g i) = rprod n f * rprod n g.
Proof. induction n as [|n IH]; simpl; [ring|]. rewrite IH. ring. Qed.

Lemma rprod_neq_0 n f : (forall i, (i < n)%nat -> f i <> 0) -> rprod n f <> 0.
Proof.
  induction n as [|n IH]; simpl; intros Hf; [lra|].
  apply Rmult_integral_contrapositive_currified; [apply IH; intros; apply Hf; lia | apply Hf; lia].
Qed.

Lemma rprod_first n f : rprod (S n) f = f O * rprod n (fun i => f (S i)).
Proof. induction n as [|n IH]; simpl; [ring|]. simpl in IH. rewrite IH. ring. Qed.

Lemma rprod_div n f g :
  (forall i, (i < n)%nat -> g i <> 0) -> rprod n (fun i => f i / g i) = rprod n f / rprod n g.
Proof.
  induction n as [|n IH]; simpl; intros Hg; [field|].
  rewrite IH by (intros; apply Hg; lia). field.
  split; [apply Hg; lia | apply rprod_neq_0; intros; apply Hg; lia].
Qed.

Lemma rprod_zero n f k : (k < n)%nat -> f k = 0 -> rprod n f = 0.
Proof.
  induction n as [|n IH]; intros Hk Hf; [lia|]. simpl.
  destruct (Nat.eq_dec k n) as [->|Hne]; [rewrite Hf; ring|].
  rewrite IH by (auto; lia). ring.
Qed.

Lemma rprod_split n m f : rprod (n + m) f = rprod n f * rprod m (fun i => f (n + i)%nat).
Proof.
  induction m as [|m IH]; simpl; [rewrite Nat.add_0_r; ring|].
  rewrite Nat.add_succ_r. simpl. rewrite IH. ring.
Qed.
