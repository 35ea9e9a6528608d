(** * RootRnd: the bracketing search of root_find in arithmetic with rounding
    The counterpart of [RootFacts]: every operation is followed by a rounding of
    relative error at most [u]. *)
Require Import List Arith Bool Lia Reals Lra Psatz.
Import ListNotations.
Require Import Verif.Base Verif.Scalar Verif.ScalarR Verif.RoundR Verif.Dense Verif.Norms Verif.Newton Verif.NewtonSpec
  Verif.IdaState Verif.IdaNls Verif.IdaCore Verif.IdaRoots Verif.IdaSolve Verif.BaseFacts Verif.NewtonFacts
  Verif.IdaFacts Verif.IdaLoops Verif.IdaStep Verif.IdaSpec Verif.IdaShell Verif.IdaReach Verif.IdaInterp.
Require Verif.RootFacts.
Open Scope R_scope.

Section Arith.
Variables (u : R) (rnd : R -> R).
Hypothesis Hr : rounding u rnd.
Hypothesis Hu : u <= / 1000.

Lemma u0 : 0 <= u. Proof. apply (proj1 Hr). Qed.

(** A rounding multiplies by a number near one. *)
Lemma rnd_mul x : exists c, rnd x = c * x /\ 1 - u <= c <= 1 + u.
Proof.
  destruct (Req_dec x 0) as [->|Hx].
  - exists 1. pose proof (proj2 Hr 0) as P. rewrite Rabs_R0, Rminus_0_r, Rmult_0_r in P.
    pose proof u0. split; [|lra]. destruct (Req_dec (rnd 0) 0) as [E|E]; [lra|]. apply Rabs_pos_lt in E. lra.
  - exists (rnd x / x). split; [field; exact Hx|].
    assert (Q : Rabs (rnd x / x - 1) <= u).
    { replace (rnd x / x - 1) with ((rnd x - x) / x) by (field; exact Hx). unfold Rdiv. rewrite Rabs_mult, Rabs_Rinv by exact Hx.
      pose proof (Rabs_pos_lt x Hx) as Px. apply (Rmult_le_reg_r (Rabs x)); [exact Px|].
      rewrite Rmult_assoc, Rinv_l, Rmult_1_r by lra. apply (proj2 Hr). }
    apply Rabs_le_between in Q || (unfold Rabs in Q; destruct (Rcase_abs _) in Q); lra.
Qed.

Lemma rnd_le0 x : rnd x <= 0 <-> x <= 0.
Proof. destruct (rnd_mul x) as (c & -> & Hc). split; intros; nra. Qed.
Lemma rnd_lt0 x : rnd x < 0 <-> x < 0.
Proof. destruct (rnd_mul x) as (c & -> & Hc). split; intros; nra. Qed.
Lemma rnd_gt0 x : 0 < rnd x <-> 0 < x.
Proof. destruct (rnd_mul x) as (c & -> & Hc). split; intros; nra. Qed.
Lemma rnd_eq0 x : rnd x = 0 <-> x = 0.
Proof. destruct (rnd_mul x) as (c & -> & Hc). split; intros; nra. Qed.
Lemma rnd_le0_2 a b : rnd (rnd a * b) <= 0 <-> a * b <= 0.
Proof.
  rewrite rnd_le0. destruct (rnd_mul a) as (c & -> & Hc). replace (c * a * b) with (c * (a * b)) by ring. split; intros; nra.
Qed.
Lemma rnd_abs x : (1 - u) * Rabs x <= Rabs (rnd x) <= (1 + u) * Rabs x.
Proof.
  destruct (rnd_mul x) as (c & -> & Hc). rewrite Rabs_mult, (Rabs_pos_eq c) by lra. pose proof (Rabs_pos x). nra.
Qed.
Lemma rnd_err x B : Rabs x <= B -> Rabs (rnd x - x) <= u * B.
Proof. intros Hx. pose proof (proj2 Hr x). pose proof u0. nra. Qed.

(** Products of a few factors near one. *)
Lemma near2 a b : 1 - u <= a <= 1 + u -> 1 - u <= b <= 1 + u -> 998 / 1000 <= a * b <= 1003 / 1000.
Proof. intros A B. pose proof u0. split; nra. Qed.

Local Instance SR : Scalar R := ScalarRnd rnd.

(** The distance kept from an end. *)
Lemma fracsub_rnd lo hi tol : 0 < tol < Rabs (rnd (hi - lo)) ->
  exists f, rnd (fracsub lo hi tol * rnd (hi - lo)) = f * (hi - lo) /\
    49 / 100 * tol <= f * Rabs (hi - lo) <= Rabs (hi - lo) - 49 / 100 * tol.
Proof.
  intros (Ht & HD). unfold fracsub. cbn. pose proof u0 as U0.
  destruct (rnd_mul (hi - lo)) as (c1 & E1 & C1). rewrite E1 in *.
  rewrite Rabs_mult, (Rabs_pos_eq c1) in * by lra. set (D := Rabs (hi - lo)) in *.
  assert (HD0 : 0 < D) by nra.
  assert (HDt : 999 / 1000 * tol <= D) by nra.
  destruct (rnd_mul (c1 * D / tol)) as (c2 & E2 & C2). rewrite E2.
  set (q := c1 * D / tol) in *. assert (Eq : q * tol = c1 * D) by (unfold q; field; lra).
  assert (Hq : 0 < q) by (unfold q; apply Rdiv_lt_0_compat; nra).
  destruct (Rltb 5 (c2 * q)) eqn:E.
  - apply Rltb_true in E.
    assert (H5 : 499 / 100 * tol <= D).
    { assert (5 * tol < c2 * (c1 * D)) by (rewrite <- Eq, <- Rmult_assoc; apply Rmult_lt_compat_r; assumption).
      pose proof (near2 c2 c1 C2 C1). nra. }
    destruct (rnd_mul (/ 10)) as (c3 & -> & C3).
    destruct (rnd_mul (c3 * / 10 * (c1 * (hi - lo)))) as (c4 & -> & C4).
    exists (c4 * (c3 * c1) / 10). split; [field|].
    pose proof (near2 c3 c1 C3 C1) as N. set (p := c3 * c1) in *.
    assert (996 / 1000 <= c4 * p <= 1005 / 1000) by (split; nra). nra.
  - destruct (rnd_mul (/ 2 / (c2 * q))) as (c3 & -> & C3).
    destruct (rnd_mul (c3 * (/ 2 / (c2 * q)) * (c1 * (hi - lo)))) as (c4 & -> & C4).
    exists (c4 * c3 * / c2 * (tol / (2 * D))). 
    assert (Ei : / 2 / (c2 * q) = / c2 * (tol / (2 * (c1 * D)))).
    { rewrite <- Eq. field. split; nra. }
    split; [rewrite Ei; field; repeat split; nra|].
    replace (c4 * c3 * / c2 * (tol / (2 * D)) * D) with (c4 * c3 * / c2 * (tol / 2)) by (field; split; nra).
    pose proof (near2 c4 c3 C4 C3) as N. set (p := c4 * c3) in *.
    assert (Hi2 : 998 / 1000 <= / c2 <= 1002 / 1000).
    { assert (c2 * / c2 = 1) by (apply Rinv_r; lra). split; nra. }
    assert (996 / 1000 <= p * / c2 <= 1006 / 1000) by (split; nra).
    set (w := p * / c2) in *. nra.
Qed.

(** The secant point lies between the ends, up to the roundings. *)
Lemma secant_rnd lo hi alph glm ghm : 0 < alph -> glm * ghm < 0 ->
  exists w, 0 < w <= 1 + 5 * u /\
    rnd (rnd (rnd (hi - lo) * ghm) / rnd (ghm - rnd (alph * glm))) = w * (hi - lo).
Proof.
  intros Ha Hg. pose proof u0 as U0.
  destruct (rnd_mul (alph * glm)) as (c0 & -> & C0).
  assert (Hb : 0 < c0 * alph) by nra. rewrite <- Rmult_assoc. set (b := c0 * alph) in *.
  destruct (rnd_mul (hi - lo)) as (c1 & -> & C1).
  destruct (rnd_mul (c1 * (hi - lo) * ghm)) as (c2 & -> & C2).
  destruct (rnd_mul (ghm - b * glm)) as (c3 & -> & C3).
  assert (Hc : (0 < ghm /\ glm < 0) \/ (ghm < 0 /\ 0 < glm)) by (apply RootFacts.prod_neg in Hg; tauto).
  assert (Hne : ghm - b * glm <> 0 /\ 0 < ghm / (ghm - b * glm) < 1).
  { destruct Hc as [(A & B)|(A & B)].
    - assert (0 < b * - glm) by (apply Rmult_lt_0_compat; lra).
      assert (0 < ghm - b * glm) by lra. split; [lra|]. split; [apply Rdiv_lt_0_compat; lra|].
      apply (Rmult_lt_reg_r (ghm - b * glm)); [lra|]. unfold Rdiv. rewrite Rmult_assoc, Rinv_l; lra.
    - assert (0 < b * glm) by (apply Rmult_lt_0_compat; lra).
      assert (0 < - (ghm - b * glm)) by lra. split; [lra|].
      replace (ghm / (ghm - b * glm)) with (- ghm / - (ghm - b * glm)) by (field; lra).
      split; [apply Rdiv_lt_0_compat; lra|].
      apply (Rmult_lt_reg_r (- (ghm - b * glm))); [lra|]. unfold Rdiv. rewrite Rmult_assoc, Rinv_l; lra. }
  destruct Hne as (N & Hb1 & Hb2).
  match goal with |- context [rnd ?X] => destruct (rnd_mul X) as (c4 & -> & C4) end.
  set (q := ghm / (ghm - b * glm)) in *.
  exists (c4 * (c1 * c2) * / c3 * q). split.
  - assert (Hi3 : 0 < / c3) by (apply Rinv_0_lt_compat; lra).
    assert (P12 : 0 < c1 * c2) by nra. assert (P124 : 0 < c4 * (c1 * c2)) by nra.
    assert (P : 0 < c4 * (c1 * c2) * / c3) by nra. split; [nra|].
    assert (B12 : c1 * c2 <= 1 + 201 / 100 * u) by nra.
    assert (B124 : c4 * (c1 * c2) <= 1 + 302 / 100 * u) by nra.
    assert (B3 : / c3 <= 1 + 101 / 100 * u).
    { apply (Rmult_le_reg_l c3); [lra|]. rewrite Rinv_r by lra. nra. }
    assert (B : c4 * (c1 * c2) * / c3 <= 1 + 5 * u) by nra. nra.
  - unfold q. field. split; [exact N|lra].
Qed.

(** The abscissa lies between the ends, at least a quarter of the tolerance from both. *)
Lemma next_tmid_rnd lo hi tol B alph glm ghm : 0 < tol < Rabs (rnd (hi - lo)) -> Rabs lo <= B -> Rabs hi <= B -> 60 * u * B <= tol ->
  0 < alph -> glm * ghm < 0 ->
  exists th, 0 < th < 1 /\ next_tmid lo hi tol alph glm ghm = lo + th * (hi - lo) /\
    tol / 4 <= th * Rabs (hi - lo) <= Rabs (hi - lo) - tol / 4.
Proof.
  intros Ht Hlo Hhi HB Ha Hg. pose proof u0 as U0. destruct (fracsub_rnd lo hi tol Ht) as (f & Ef & F).
  destruct (secant_rnd lo hi alph glm ghm Ha Hg) as (w & Hw & Ew).
  unfold next_tmid. cbn. rewrite !Ef, !Ew.
  set (d := hi - lo) in *.
  assert (HD : 0 < Rabs d /\ d <> 0).
  { pose proof (rnd_abs d). assert (0 < Rabs d) by (pose proof (Rabs_pos d); nra). split; [assumption|].
    intros E. rewrite E, Rabs_R0 in *. lra. }
  destruct HD as (HD & Hd0). destruct Ht as (Ht & HtD).
  assert (HDB : Rabs d <= 2 * B) by (unfold d; pose proof (Rabs_triang hi (- lo)) as T; rewrite Rabs_Ropp in T; unfold Rminus; lra).
  assert (HB0 : 0 <= B) by (pose proof (Rabs_pos lo); lra).
  assert (Hhalf : 499 / 1000 * tol <= rnd (/ 2 * tol) <= 501 / 1000 * tol).
  { destruct (rnd_mul (/ 2 * tol)) as (c & -> & Hc). split; nra. }
  (* a rounded point, relative to the ends *)
  assert (Rel : forall x, - (5 * u) <= x <= 1 -> exists y, rnd (lo + x * d) = lo + y * d /\
     Rabs (y - x) * Rabs d <= 2 / 100 * tol).
  { intros x Hx. exists (x + (rnd (lo + x * d) - (lo + x * d)) / d). split; [field; exact Hd0|].
    replace (x + (rnd (lo + x * d) - (lo + x * d)) / d - x) with ((rnd (lo + x * d) - (lo + x * d)) * / d) by (unfold Rdiv; ring).
    rewrite Rabs_mult, Rabs_Rinv, Rmult_assoc, Rinv_l, Rmult_1_r by lra.
    assert (Hb : Rabs (lo + x * d) <= 102 / 100 * B).
    { replace (lo + x * d) with ((1 - x) * lo + x * hi) by (unfold d; ring).
      pose proof (Rabs_triang ((1 - x) * lo) (x * hi)) as T. rewrite !Rabs_mult, (Rabs_pos_eq (1 - x)) in T by lra.
      destruct (Rle_lt_dec 0 x) as [X|X].
      - rewrite (Rabs_pos_eq x) in T by lra. nra.
      - rewrite (Rabs_left x) in T by lra. assert ((1 - x) * Rabs lo <= (1 + 5 * u) * B) by nra. assert (- x * Rabs hi <= 5 * u * B) by nra. nra. }
    pose proof (rnd_err _ _ Hb). nra. }
  assert (Abs : forall y, Rabs (y * d) = Rabs y * Rabs d) by (intros; apply Rabs_mult).
  assert (Hf : 0 < f < 1) by (split; nra).
  (* first candidate *)
  destruct (Rel (1 - w)) as (y1 & E1 & R1); [lra|]. destruct (Rel f) as (y2 & E2 & R2); [lra|]. destruct (Rel (1 - f)) as (y3 & E3 & R3); [lra|].
  replace (hi - w * d) with (lo + (1 - w) * d) by (unfold d; ring).
  replace (hi - f * d) with (lo + (1 - f) * d) by (unfold d; ring).
  rewrite E1, E2, E3. set (D := Rabs d) in *.
  assert (Dec : forall a x, Rabs (a - x) * D <= 2 / 100 * tol -> x * D - 2 / 100 * tol <= a * D <= x * D + 2 / 100 * tol).
  { intros a x Q. assert (Rabs ((a - x) * d) <= 2 / 100 * tol) by (rewrite Rabs_mult; exact Q).
    pose proof (Rle_abs (a - x)). pose proof (Rle_abs (- (a - x))). rewrite Rabs_Ropp in *. split; nra. }
  apply Dec in R1, R2, R3.
  assert (HuD : 5 * u * D <= 17 / 100 * tol) by nra.
  assert (Lo1 : - (19 / 100) * tol <= y1 * D) by nra.
  assert (Hi1 : y1 * D <= D + 2 / 100 * tol) by nra.
  clear R1 Hw Ew E1 E2 E3 Ef.
  match goal with |- context [if ?b then lo + y2 * d else lo + y1 * d] =>
    set (t1 := if b then lo + y2 * d else lo + y1 * d); assert (H1 : exists y, t1 = lo + y * d /\ 45 / 100 * tol <= y * D /\ y * D <= D + 2 / 100 * tol) end.
  { unfold t1. destruct (Rltb _ _) eqn:E.
    - exists y2. split; [reflexivity|]. lra.
    - apply Rltb_false in E. exists y1. split; [reflexivity|]. split; [|exact Hi1].
      replace (lo + y1 * d - lo) with (y1 * d) in E by ring.
      pose proof (rnd_abs (y1 * d)) as Q. rewrite Abs in Q. fold D in Q.
      assert (498 / 1000 * tol <= Rabs y1 * D) by nra.
      unfold Rabs in H. destruct (Rcase_abs y1) in H; nra. }
  destruct H1 as (y & -> & Y1 & Y2).
  assert (Fin : forall z, tol / 4 <= z * D <= D - tol / 4 -> exists th, 0 < th < 1 /\ lo + z * d = lo + th * d /\ tol / 4 <= th * D <= D - tol / 4).
  { intros z Hz. exists z. split; [split; nra|]. split; [reflexivity|exact Hz]. }
  destruct (Rltb _ _) eqn:E.
  - apply Fin. lra.
  - apply Rltb_false in E. apply Fin. split; [lra|].
    replace (hi - (lo + y * d)) with ((1 - y) * d) in E by (unfold d; ring).
    pose proof (rnd_abs ((1 - y) * d)) as Q. rewrite Abs in Q. fold D in Q.
    assert (498 / 1000 * tol <= Rabs (1 - y) * D) by nra.
    unfold Rabs in H. destruct (Rcase_abs (1 - y)) in H; nra.
Qed.
End Arith.
