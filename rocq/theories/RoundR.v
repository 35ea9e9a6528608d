(** * RoundR: arithmetic with rounding

    Every operation returns the exact result rounded by [rnd]; the constants are
    rounded, comparisons, sign changes and absolute values are exact, as in IEEE
    arithmetic.  With [rnd] the rounding to nearest of binary64 with unbounded
    exponents (last lemma) this is f64 arithmetic as long as nothing overflows
    or underflows. *)
Require Import Reals Lra Lia Psatz.
From Flocq Require Import Core Relative.
Require Import Verif.Base Verif.Scalar Verif.ScalarR.
Open Scope R_scope.

Definition ScalarRnd (rnd : R -> R) : Scalar R := {|
  szero := 0; sone := 1;
  sadd x y := rnd (x + y); ssub x y := rnd (x - y); smul x y := rnd (x * y); sdiv x y := rnd (x / y);
  sneg := Ropp; sabs := Rabs; ssqrt x := rnd (sqrt x); spowf x y := rnd (Rpowf x y);
  smax := Rmax; smin := Rmin; ssignum := Rsignum;
  sltb := Rltb; sleb := Rleb; seqb := Reqb;
  sofnat k := rnd (INR k);
  seps := / 4503599627370496;
  shalf := / 2; squarter := / 4; stwo := 2; sfour := 4; sfive := 5; sten := 10;
  stwenty := 20; shundred := 100; spt9 := rnd (9 / 10); spt1 := rnd (/ 10); spt05 := rnd (/ 20);
  spt001 := rnd (/ 1000); spt0001 := rnd (/ 10000);
  sepcon := rnd (33 / 100); sratemax := rnd (9 / 10); sxrate_lo := rnd (6 / 10)
|}.

(** Relative error at most [u]. *)
Definition rounding (u : R) (rnd : R -> R) : Prop :=
  0 <= u < 1 /\ forall x, Rabs (rnd x - x) <= u * Rabs x.

(** A product of [k] factors, each with relative error at most [u] or the
    reciprocal of such. *)
Definition near (u : R) (k : nat) (c : R) : Prop := (1 - u) ^ k <= c <= (/ (1 - u)) ^ k.

(** The classical constant of rounding error analysis. *)
Definition gamma (u : R) (k : nat) : R := INR k * u / (1 - INR k * u).

Lemma pow_le_1 x k : 0 <= x <= 1 -> x ^ k <= 1.
Proof. intros Hx. pose proof (pow_incr x 1 k Hx) as P. rewrite pow1 in P. exact P. Qed.

Section Near.
Variables (u : R) (rnd : R -> R).
Hypothesis Hr : rounding u rnd.

Lemma u_range : 0 <= u < 1. Proof. exact (proj1 Hr). Qed.

Lemma q_ge_1 : 1 <= / (1 - u).
Proof. pose proof u_range. rewrite <- Rinv_1 at 1. apply Rinv_le_contravar; lra. Qed.

Lemma near_0 : near u 0 1. Proof. unfold near. cbn. lra. Qed.

Lemma near_pos k c : near u k c -> 0 < c.
Proof. intros (Hl & _). pose proof u_range. eapply Rlt_le_trans; [|exact Hl]. apply pow_lt. lra. Qed.

Lemma near_le j k c : (j <= k)%nat -> near u j c -> near u k c.
Proof.
  intros Hjk (Hl & Hh). pose proof u_range as Hu. pose proof q_ge_1 as Hq. split.
  - eapply Rle_trans; [|exact Hl]. replace k with (j + (k - j))%nat by lia. rewrite pow_add.
    rewrite <- (Rmult_1_r ((1 - u) ^ j)) at 2. apply Rmult_le_compat_l; [apply pow_le; lra|].
    apply pow_le_1. lra.
  - eapply Rle_trans; [exact Hh|]. apply Rle_pow; assumption.
Qed.

Lemma near_mult j k c d : near u j c -> near u k d -> near u (j + k) (c * d).
Proof.
  intros Hc Hd. pose proof (near_pos _ _ Hc). pose proof (near_pos _ _ Hd). destruct Hc as (C1 & C2), Hd as (D1 & D2).
  pose proof u_range. unfold near. rewrite !pow_add. split; apply Rmult_le_compat; try assumption; try lra; apply pow_le; lra.
Qed.

Lemma near_inv k c : near u k c -> near u k (/ c).
Proof.
  intros Hc. pose proof (near_pos _ _ Hc) as Hp. destruct Hc as (C1 & C2). pose proof u_range.
  assert (P : 0 < (1 - u) ^ k) by (apply pow_lt; lra). unfold near in *. rewrite pow_inv in *. split.
  - rewrite <- (Rinv_inv ((1 - u) ^ k)). apply Rinv_le_contravar; assumption.
  - apply Rinv_le_contravar; assumption.
Qed.

Lemma near_1 k : near u k 1.
Proof. apply (near_le 0); [lia|apply near_0]. Qed.

(** Two such factors differ by little. *)
Lemma near_diff j k c d : near u j c -> near u k d -> Rabs (c - d) <= (/ (1 - u)) ^ (j + k) - 1.
Proof.
  assert (G : forall j k c d, near u j c -> near u k d -> c - d <= (/ (1 - u)) ^ (j + k) - 1).
  { clear j k c d. intros j k c d (_ & C2) (D1 & _). pose proof u_range. pose proof q_ge_1 as Hq.
    assert (P : 0 < (1 - u) ^ k <= 1).
    { split; [apply pow_lt; lra|]. apply pow_le_1. lra. }
    assert (Q : 1 <= (/ (1 - u)) ^ (j + k)) by (apply pow_R1_Rle; exact Hq).
    assert (E : (/ (1 - u)) ^ j = (1 - u) ^ k * (/ (1 - u)) ^ (j + k)).
    { rewrite pow_add, (pow_inv (1 - u) k). field. apply pow_nonzero. lra. }
    rewrite E in C2. nra. }
  intros Hc Hd. apply Rabs_le. split; [|apply G; assumption].
  pose proof (G k j d c Hd Hc). rewrite Nat.add_comm in H. lra.
Qed.

(** The factor by which a rounding changes a number. *)
Lemma rnd_near x : exists c, rnd x = x * c /\ near u 1 c.
Proof.
  destruct Hr as (Hu & He). specialize (He x). destruct (Req_dec x 0) as [->|Hx].
  - exists 1. split; [|apply near_1]. rewrite Rabs_R0, Rminus_0_r, Rmult_0_r in He.
    assert (Z : Rabs (rnd 0) = 0) by (pose proof (Rabs_pos (rnd 0)); lra).
    destruct (Req_dec (rnd 0) 0) as [->|N]; [ring|]. apply Rabs_no_R0 in N. contradiction.
  - exists (rnd x / x). split; [field; exact Hx|].
    assert (E : Rabs (rnd x / x - 1) <= u).
    { replace (rnd x / x - 1) with ((rnd x - x) / x) by (field; exact Hx). unfold Rdiv. rewrite Rabs_mult, Rabs_inv.
      apply Rmult_le_reg_r with (Rabs x); [apply Rabs_pos_lt; exact Hx|].
      rewrite Rmult_assoc, Rinv_l by (apply Rabs_no_R0; exact Hx). lra. }
    apply Rabs_le_inv in E. unfold near. rewrite !pow_1. split; [lra|].
    apply Rle_trans with (1 + u); [lra|]. apply Rmult_le_reg_r with (1 - u); [lra|]. rewrite Rinv_l by lra. nra.
Qed.

Lemma rnd_0 : rnd 0 = 0.
Proof. destruct (rnd_near 0) as (c & -> & _). ring. Qed.

Lemma gamma_bound k : INR k * u < 1 -> (/ (1 - u)) ^ k - 1 <= gamma u k.
Proof.
  intros Hk. pose proof u_range as Hu. unfold gamma. rewrite pow_inv.
  assert (B : 1 - INR k * u <= (1 - u) ^ k).
  { clear Hk. induction k as [|k IH]; [cbn; lra|]. rewrite S_INR. cbn [pow].
    pose proof (pos_INR k) as Hp.
    destruct (Rle_dec 0 (1 - INR k * u)) as [Hc|Hc].
    - apply Rle_trans with ((1 - u) * (1 - INR k * u)); [nra|]. apply Rmult_le_compat_l; lra.
    - apply Rle_trans with 0; [nra|]. apply Rmult_le_pos; [lra|apply pow_le; lra]. }
  apply Rle_trans with (/ (1 - INR k * u) - 1).
  - apply Rplus_le_compat_r. apply Rinv_le_contravar; lra.
  - right. field. lra.
Qed.
End Near.

(** Rounding to nearest, 53 bits, any exponent. *)
Definition rnd53 : R -> R := round radix2 (FLX_exp 53) ZnearestE.

Lemma rnd53_rounding : rounding (/ 9007199254740992) rnd53.
Proof.
  split; [lra|]. intros x. unfold rnd53.
  pose proof (relative_error_N_FLX radix2 53 eq_refl (fun x => negb (Z.even x)) x) as E.
  eapply Rle_trans; [exact E|]. right. f_equal. 
  change (/ 2 * bpow radix2 (-52) = / 9007199254740992). cbn. lra.
Qed.
