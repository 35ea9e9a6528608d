(** * NormsRnd: norms and error weights in arithmetic with rounding *)
Require Import List Arith Bool Lia Reals Lra.
Import ListNotations.
Require Import Verif.Base Verif.Scalar Verif.ScalarR Verif.RoundR Verif.Norms Verif.BaseFacts Verif.RSum Verif.NormsR.
Open Scope R_scope.

Section Rnd.
Variables (u : R) (rnd : R -> R).
Hypothesis Hr : rounding u rnd.
Local Instance SRnd : Scalar R := ScalarRnd rnd.

(** A sum of non-negative terms with small relative errors. *)
Lemma near_sum k n f g :
  (forall i, (i < n)%nat -> 0 <= f i) ->
  (forall i, (i < n)%nat -> exists c, near u k c /\ g i = f i * c) ->
  exists c, near u k c /\ rsum n g = rsum n f * c.
Proof.
  intros Hf Hg.
  assert (B : (1 - u) ^ k * rsum n f <= rsum n g <= (/ (1 - u)) ^ k * rsum n f).
  { rewrite <- !rsum_scal. split; apply rsum_le; intros i Hi; destruct (Hg i Hi) as (c & (C1 & C2) & ->);
      specialize (Hf i Hi); rewrite (Rmult_comm (f i)); apply Rmult_le_compat_r; assumption. }
  assert (H0 : 0 <= rsum n f) by (apply rsum_nonneg; exact Hf).
  destruct (Req_dec (rsum n f) 0) as [E|E].
  - exists 1. split; [apply (near_1 u rnd Hr)|]. rewrite E in *. lra.
  - exists (rsum n g / rsum n f). split; [|field; exact E].
    split; [apply Rmult_le_reg_r with (rsum n f)|apply Rmult_le_reg_r with (rsum n f)]; try lra;
      unfold Rdiv; rewrite Rmult_assoc, Rinv_l, Rmult_1_r by exact E; lra.
Qed.

Lemma near_plus k a b c d :
  0 <= a -> 0 <= b -> near u k c -> near u k d -> exists e, near u k e /\ a * c + b * d = (a + b) * e.
Proof.
  intros Ha Hb Hc Hd.
  destruct (near_sum k 2 (fun i => match i with O => a | _ => b end) (fun i => match i with O => a * c | _ => b * d end)) as (e & Ne & E).
  - intros [|i] _; assumption.
  - intros [|i] _; [exists c|exists d]; auto.
  - exists e. split; [exact Ne|]. cbn in E. lra.
Qed.

(** The sum as the code computes it, from zero upwards. *)
Lemma fold_sum_near f : (forall i, 0 <= f i) -> forall n,
  exists c, near u n c /\ fold_left (fun a b => rnd (a + b)) (map f (seq 0 n)) 0 = rsum n f * c.
Proof.
  intros Hf n. induction n as [|n (c & Nc & E)].
  - exists 1. split; [apply near_0|]. cbn. ring.
  - rewrite seq_S, map_app, fold_left_app. cbn [map fold_left]. rewrite E. cbn [Nat.add].
    destruct (near_plus n (rsum n f) (f n) c 1) as (e & Ne & Ee); auto.
    { apply rsum_nonneg. auto. } { apply (near_1 u rnd Hr). }
    rewrite Rmult_1_r in Ee. rewrite Ee.
    destruct (rnd_near u rnd Hr ((rsum n f + f n) * e)) as (d & Ed & Nd). rewrite Ed.
    exists (e * d). split; [replace (S n) with (n + 1)%nat by lia; apply (near_mult u rnd Hr); assumption|].
    cbn [rsum]. ring.
Qed.

Lemma near_sqrt k c : near u (2 * k) c -> near u k (sqrt c).
Proof.
  intros (H1 & H2). pose proof (u_range u rnd Hr). pose proof (q_ge_1 u rnd Hr).
  rewrite Nat.mul_comm, !pow_mult in *.
  assert (S : forall x, 0 <= x -> sqrt ((x ^ k) ^ 2) = x ^ k) by (intros x Hx; apply sqrt_pow2; apply pow_le; exact Hx).
  split; [rewrite <- S by lra|rewrite <- (S (/ (1 - u))) by lra]; apply sqrt_le_1_alt; assumption.
Qed.

(** The factor of the norm of [n] components whose squares carry [2 k + 1]
    roundings each. *)
Lemma norm_near k n f g :
  (1 <= n)%nat ->
  (forall i, exists c, near u (2 * k) c /\ g i = f i * f i * c) ->
  exists c, near u (k + n / 2 + 3) c /\
    rnd (sqrt (rnd (fold_left (fun a b => rnd (a + b)) (map (fun i => rnd (g i)) (seq 0 n)) 0 / rnd (INR n))))
    = sqrt (rsum n (fun i => f i * f i) / INR n) * c.
Proof.
  intros Hn Hg.
  assert (Hg' : forall i, exists c, near u (2 * k + 1) c /\ rnd (g i) = f i * f i * c).
  { intros i. destruct (Hg i) as (c & Nc & ->). destruct (rnd_near u rnd Hr (f i * f i * c)) as (d & -> & Nd).
    exists (c * d). split; [apply (near_mult u rnd Hr); assumption|ring]. }
  destruct (fold_sum_near (fun i => rnd (g i))) with (n := n) as (c1 & N1 & ->).
  { intros i. destruct (Hg' i) as (c & Nc & ->). pose proof (near_pos u rnd Hr _ _ Nc).
    apply Rmult_le_pos; [apply Rle_0_sqr|lra]. }
  destruct (near_sum (2 * k + 1) n (fun i => f i * f i) (fun i => rnd (g i))) as (c2 & N2 & ->).
  { intros i _. apply Rle_0_sqr. } { intros i _. apply Hg'. }
  set (s := rsum n (fun i => f i * f i)).
  assert (Hs : 0 <= s) by (apply rsum_nonneg; intros; apply Rle_0_sqr).
  assert (HI : 0 < INR n) by (apply lt_0_INR; lia).
  destruct (rnd_near u rnd Hr (INR n)) as (c3 & -> & N3).
  pose proof (near_pos u rnd Hr _ _ N3) as P3.
  destruct (rnd_near u rnd Hr (s * c2 * c1 / (INR n * c3))) as (c4 & -> & N4).
  assert (N : near u (2 * (k + n / 2 + 2)) (c2 * c1 * / c3 * c4)).
  { apply (near_le u rnd Hr (2 * k + 1 + n + 1 + 1)).
    - pose proof (Nat.div_mod_eq n 2) as D. pose proof (Nat.mod_upper_bound n 2 ltac:(lia)). lia.
    - repeat apply (near_mult u rnd Hr); try assumption. apply (near_inv u rnd Hr); assumption. }
  replace (s * c2 * c1 / (INR n * c3) * c4) with (s / INR n * (c2 * c1 * / c3 * c4)) by (field; lra).
  rewrite sqrt_mult_alt by (apply Rmult_le_pos; [exact Hs|left; apply Rinv_0_lt_compat; exact HI]).
  destruct (rnd_near u rnd Hr (sqrt (s / INR n) * sqrt (c2 * c1 * / c3 * c4))) as (c5 & -> & N5).
  exists (sqrt (c2 * c1 * / c3 * c4) * c5). split; [|ring].
  replace (k + n / 2 + 3)%nat with (k + n / 2 + 2 + 1)%nat by lia.
  apply (near_mult u rnd Hr); [apply near_sqrt; exact N|exact N5].
Qed.

Lemma rnd_norm (x w : list R) :
  (1 <= length x)%nat ->
  exists c, near u (length x / 2 + 4) c /\
    norm_wrms x w = wrms (length x) (fun i => nth i x 0) (fun i => nth i w 0) * c.
Proof.
  intros Hn. set (f := fun i => nth i x 0 * nth i w 0).
  destruct (norm_near 1 (length x) f (fun i => rnd (f i) * rnd (f i)) Hn) as (c & Nc & E).
  { intros i. destruct (rnd_near u rnd Hr (f i)) as (c & -> & Nc). exists (c * c).
    split; [apply (near_mult u rnd Hr 1 1); assumption|ring]. }
  exists c. split; [|exact E]. replace (length x / 2 + 4)%nat with (1 + length x / 2 + 3)%nat by lia. exact Nc.
Qed.

Lemma rnd_norm_masked (x w : list R) id :
  (1 <= length x)%nat ->
  exists c, near u (length x / 2 + 5) c /\
    norm_wrms_masked x w id = wrms (length x) (fun i => if nth i id false then nth i x 0 else 0) (fun i => nth i w 0) * c.
Proof.
  intros Hn. set (f := fun i => (if nth i id false then nth i x 0 else 0) * nth i w 0).
  set (h := fun i => rnd (rnd (nth i x 0 * nth i w 0) * (if nth i id false then 1 else 0))).
  destruct (norm_near 2 (length x) f (fun i => h i * h i) Hn) as (c & Nc & E).
  { intros i. unfold h, f. destruct (rnd_near u rnd Hr (nth i x 0 * nth i w 0)) as (c & -> & Nc).
    destruct (rnd_near u rnd Hr (nth i x 0 * nth i w 0 * c * (if nth i id false then 1 else 0))) as (d & -> & Nd).
    exists ((c * d) * (c * d)). split; [apply (near_mult u rnd Hr 2 2); apply (near_mult u rnd Hr 1 1); assumption|].
    destruct (nth i id false); ring. }
  exists c. split; [|exact E]. replace (length x / 2 + 5)%nat with (2 + length x / 2 + 3)%nat by lia. exact Nc.
Qed.

(** One error weight. *)
Lemma rnd_weight rtol a y :
  0 <= rtol -> 0 < a ->
  exists c, near u 3 c /\ srecip (rtol * sabs y + a)%sc = / (rtol * Rabs y + a) * c.
Proof.
  intros Hrt Ha. cbn. destruct (rnd_near u rnd Hr (rtol * Rabs y)) as (c1 & -> & N1).
  assert (H0 : 0 <= rtol * Rabs y) by (apply Rmult_le_pos; [exact Hrt|apply Rabs_pos]).
  destruct (near_plus 1 (rtol * Rabs y) a c1 1 H0 ltac:(lra) N1 (near_1 u rnd Hr 1)) as (c2 & N2 & E2).
  rewrite Rmult_1_r in E2. rewrite E2.
  destruct (rnd_near u rnd Hr ((rtol * Rabs y + a) * c2)) as (c3 & E3 & N3). unfold srecip. cbn. rewrite E3.
  destruct (rnd_near u rnd Hr (1 / ((rtol * Rabs y + a) * c2 * c3))) as (c4 & -> & N4).
  pose proof (near_pos u rnd Hr _ _ N2). pose proof (near_pos u rnd Hr _ _ N3).
  exists (/ (c2 * c3) * c4). split.
  - apply (near_mult u rnd Hr 2 1); [apply (near_inv u rnd Hr); apply (near_mult u rnd Hr 1 1); assumption|exact N4].
  - field. repeat split; lra.
Qed.

(** The norm with perturbed weights. *)
Lemma wrms_near k n x w w' :
  (forall i, (i < n)%nat -> exists c, near u k c /\ w' i = w i * c) ->
  exists c, near u k c /\ wrms n x w' = wrms n x w * c.
Proof.
  intros Hw. unfold wrms.
  destruct (near_sum (2 * k) n (fun i => x i * w i * (x i * w i)) (fun i => x i * w' i * (x i * w' i))) as (c & Nc & ->).
  - intros i _. apply Rle_0_sqr.
  - intros i Hi. destruct (Hw i Hi) as (c & Nc & ->). exists (c * c). split; [|ring].
    replace (2 * k)%nat with (k + k)%nat by lia. apply (near_mult u rnd Hr); assumption.
  - exists (sqrt c). split; [apply near_sqrt; exact Nc|].
    rewrite <- sqrt_mult_alt.
    + f_equal. unfold Rdiv. ring.
    + destruct (Nat.eq_dec n 0) as [->|Hn]; [cbn; unfold Rdiv; rewrite Rmult_0_l; lra|].
      apply Rmult_le_pos; [apply rsum_nonneg; intros; apply Rle_0_sqr|]. left. apply Rinv_0_lt_compat, lt_0_INR. lia.
Qed.
End Rnd.
