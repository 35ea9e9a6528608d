(** * IdaStepRnd: step sizes, times and the stop time in arithmetic with rounding

    The rounding is monotone and idempotent, its relative error is at most
    2^-53. *)
Require Import List Arith Bool Lia Reals Lra Psatz.
Import ListNotations.
From Flocq Require Import Core.
Require Import Verif.Base Verif.Scalar Verif.ScalarR Verif.RoundR Verif.Norms Verif.Newton Verif.NewtonSpec Verif.IdaState
  Verif.IdaNls Verif.IdaCore Verif.IdaRoots Verif.IdaSolve Verif.BaseFacts Verif.NewtonFacts
  Verif.IdaFacts Verif.IdaLoops Verif.IdaStep Verif.IdaSpec Verif.IdaShell Verif.IdaReach Verif.IdaInv
  Verif.IdaCount Verif.IdaLife Verif.IdaTrace Verif.IdaStepR.
Open Scope R_scope.

(** A rounding to nearest, or in a fixed direction, of sufficient precision. *)
Record regular (u : R) (rnd : R -> R) : Prop := mkregular {
  rg_err : rounding u rnd;
  rg_prec : u <= / 9007199254740992;
  rg_mono : forall x y, x <= y -> rnd x <= rnd y;
  rg_idem : forall x, rnd (rnd x) = rnd x }.

#[local] Instance prec53 : Prec_gt_0 53 := eq_refl.

Lemma rnd53_regular : regular (/ 9007199254740992) rnd53.
Proof.
  constructor; [exact rnd53_rounding|lra| |].
  - intros x y Hxy. unfold rnd53. apply round_le; [typeclasses eauto|typeclasses eauto|exact Hxy].
  - intros x. unfold rnd53. apply round_generic; [typeclasses eauto|]. apply generic_format_round; typeclasses eauto.
Qed.

Lemma id_regular : regular 0 (fun x => x).
Proof.
  constructor; [|lra|auto|auto]. split; [lra|]. intros x. rewrite Rminus_diag_eq, Rabs_R0 by reflexivity. lra.
Qed.

Lemma side_pos a h : 0 < h -> a * h <= 0 -> a <= 0.
Proof. intros Hh Ha. destruct (Rle_or_lt a 0) as [|Q]; [assumption|]. pose proof (Rmult_lt_0_compat _ _ Q Hh). lra. Qed.

Lemma side_neg a h : h < 0 -> a * h <= 0 -> 0 <= a.
Proof.
  intros Hh Ha. destruct (Rle_or_lt 0 a) as [|Q]; [assumption|].
  assert (0 < (- a) * (- h)) by (apply Rmult_lt_0_compat; lra). lra.
Qed.

Section Arith.
Variables (u : R) (rnd : R -> R).
Hypothesis Hg : regular u rnd.
Let Hr := rg_err _ _ Hg.

Lemma rnd_pos x : 0 < x -> 0 < rnd x.
Proof. intros Hx. destruct (rnd_near u rnd Hr x) as (c & -> & Nc). pose proof (near_pos u rnd Hr _ _ Nc). nra. Qed.

Lemma rnd_neg x : x < 0 -> rnd x < 0.
Proof. intros Hx. destruct (rnd_near u rnd Hr x) as (c & -> & Nc). pose proof (near_pos u rnd Hr _ _ Nc). nra. Qed.

Lemma rnd_nonneg x : 0 <= x -> 0 <= rnd x.
Proof. intros Hx. destruct (rnd_near u rnd Hr x) as (c & -> & Nc). pose proof (near_pos u rnd Hr _ _ Nc). nra. Qed.

Lemma rnd_pos_inv x : 0 < rnd x -> 0 < x.
Proof. intros Hx. destruct (Rlt_le_dec 0 x) as [|[Q|Q]]; [assumption|apply rnd_neg in Q; lra|subst; rewrite (rnd_0 u rnd Hr) in Hx; lra]. Qed.

Lemma rnd_neg_inv x : rnd x < 0 -> x < 0.
Proof. intros Hx. destruct (Rlt_le_dec x 0) as [|Q]; [assumption|apply rnd_nonneg in Q; lra]. Qed.

Lemma rnd_le0_inv x : rnd x <= 0 -> x <= 0.
Proof. intros Hx. destruct (Rlt_le_dec 0 x) as [Q|]; [apply rnd_pos in Q; lra|assumption]. Qed.

Lemma rnd_same x y : 0 < x * y -> 0 < rnd x * y.
Proof. intros P. destruct (rnd_near u rnd Hr x) as (c & -> & Nc). pose proof (near_pos u rnd Hr _ _ Nc). nra. Qed.

Lemma rnd_same_inv x y : 0 < rnd x * y -> 0 < x * y.
Proof.
  intros P. destruct (rnd_near u rnd Hr x) as (c & E & Nc). rewrite E in P. pose proof (near_pos u rnd Hr _ _ Nc).
  destruct (Rlt_le_dec 0 (x * y)); [assumption|]. nra.
Qed.

(** The factor in front of the stop time absorbs the roundings. *)
Lemma cut_rnd d : exists q, rnd (rnd d * rnd (1 - rnd (4 * / 4503599627370496))) = q * d /\ 0 < q <= 1.
Proof.
  pose proof (rg_prec _ _ Hg) as Hu. destruct (u_range u rnd Hr) as (Hu0 & _).
  set (e := / 4503599627370496). assert (He : u <= e / 2 /\ 0 < e <= / 1000000) by (unfold e; lra). clearbody e.
  assert (B : forall x, 0 <= x -> (1 - u) * x <= rnd x <= (1 + u) * x).
  { intros x Hx. destruct Hr as (_ & Hx'). specialize (Hx' x). rewrite (Rabs_pos_eq x Hx) in Hx'.
    unfold Rabs in Hx'. destruct (Rcase_abs (rnd x - x)); lra. }
  assert (C : forall x, exists c, rnd x = x * c /\ 1 - u <= c <= 1 + u).
  { intros x. destruct (Req_dec x 0) as [->|Nx]; [exists 1; rewrite (rnd_0 u rnd Hr); lra|].
    destruct Hr as (_ & Hx'). specialize (Hx' x). exists (rnd x / x). split; [field; exact Nx|].
    assert (E : Rabs (rnd x / x - 1) <= u).
    { replace (rnd x / x - 1) with ((rnd x - x) / x) by (field; exact Nx). unfold Rdiv. rewrite Rabs_mult, Rabs_inv.
      apply Rmult_le_reg_r with (Rabs x); [apply Rabs_pos_lt; exact Nx|].
      rewrite Rmult_assoc, Rinv_l by (apply Rabs_no_R0; exact Nx). lra. }
    unfold Rabs in E. destruct (Rcase_abs (rnd x / x - 1)); lra. }
  pose proof (B (4 * e) ltac:(lra)) as (F1 & F2).
  set (f := rnd (4 * e)) in *. clearbody f.
  assert (F3 : 3 * e <= f <= 5 * e) by nra.
  pose proof (B (1 - f) ltac:(lra)) as (G1 & G2). set (g := rnd (1 - f)) in *. clearbody g.
  destruct (C d) as (c1 & E1 & C1). destruct (C (rnd d * g)) as (c2 & E2 & C2).
  exists (c1 * g * c2). rewrite E2, E1. split; [ring|].
  assert (G3 : / 2 <= g <= (1 + u) * (1 - 3 * e)) by nra.
  assert (P1 : c1 * g <= (1 + u) * ((1 + u) * (1 - 3 * e))) by (apply Rmult_le_compat; lra).
  assert (P0 : 0 < c1 * g) by nra.
  assert (P2 : c1 * g * c2 <= (1 + u) * ((1 + u) * (1 - 3 * e)) * (1 + u)) by (apply Rmult_le_compat; lra).
  split; [nra|]. eapply Rle_trans; [exact P2|].
  assert (U3 : (1 + u) * (1 + u) * (1 + u) <= 1 + 3 * u + 4 * u * u) by nra.
  assert (U4 : 4 * u * u <= u) by nra.
  assert (U5 : (1 + u) * (1 + u) * (1 + u) <= 1 + 2 * e) by lra.
  replace ((1 + u) * ((1 + u) * (1 - 3 * e)) * (1 + u)) with ((1 + u) * (1 + u) * (1 + u) * (1 - 3 * e)) by ring.
  nra.
Qed.

(** Reduction in front of a stop time. *)
Lemma limit_rnd t ts h0 h :
  rnd ts = ts -> h0 <> 0 -> (t - ts) * h0 <= 0 -> t <> ts ->
  h = (if Rltb 0 (rnd (rnd (rnd (t + h0) - ts) * h0))
       then rnd (rnd (ts - t) * rnd (1 - rnd (4 * / 4503599627370496))) else h0) ->
  (rnd (t + h) - ts) * h <= 0 /\ (t - ts) * h < 0 /\ exists q, 0 < q <= 1 /\ h = q * h0.
Proof.
  intros Rt Hz Hs Hne E. pose proof (sq_pos _ Hz).
  destruct (Rltb 0 _) eqn:Eb.
  - apply Rltb_true, rnd_pos_inv, rnd_same_inv in Eb. destruct (cut_rnd (ts - t)) as (q & Eq & Hq). rewrite Eq in E. clear Eq.
    destruct (Rtotal_order h0 0) as [A|[A|A]]; [|contradiction|].
    + assert (ts < t) by (assert (t - ts >= 0) by nra; lra). assert (F : rnd (t + h0) < ts) by nra.
      assert (t + h0 < ts).
      { destruct (Rlt_le_dec (t + h0) ts) as [|Q]; [assumption|]. apply (rg_mono _ _ Hg) in Q. lra. }
      assert (ts <= t + h) by nra. pose proof (rg_mono _ _ Hg _ _ H2) as Q. rewrite Rt in Q.
      assert (h < 0) by (rewrite E; nra). split; [nra|]. split; [nra|].
      exists (h / h0). split; [|field; assumption]. replace (h / h0) with ((- h) / (- h0)) by (field; lra).
      split; [apply Rdiv_lt_0_compat; lra|].
      apply Rmult_le_reg_r with (- h0); [lra|]. replace (- h / - h0 * - h0) with (- h) by (field; lra). nra.
    + assert (t < ts) by (assert (t - ts <= 0) by nra; lra). assert (F : ts < rnd (t + h0)) by nra.
      assert (ts < t + h0).
      { destruct (Rlt_le_dec ts (t + h0)) as [|Q]; [assumption|]. apply (rg_mono _ _ Hg) in Q. lra. }
      assert (t + h <= ts) by nra. pose proof (rg_mono _ _ Hg _ _ H2) as Q. rewrite Rt in Q.
      assert (0 < h) by (rewrite E; nra). split; [nra|]. split; [nra|].
      exists (h / h0). split; [|field; assumption].
      split; [apply Rdiv_lt_0_compat; lra|].
      apply Rmult_le_reg_r with h0; [lra|]. replace (h / h0 * h0) with h by (field; lra). nra.
  - apply Rltb_false, rnd_le0_inv in Eb. subst h. split.
    + destruct (Rle_or_lt ((rnd (t + h0) - ts) * h0) 0) as [|Q]; [assumption|]. apply rnd_same in Q. lra.
    + split; [|exists 1; lra].
      assert ((t - ts) * h0 <> 0) by (apply Rmult_integral_contrapositive; split; lra). lra.
Qed.

Lemma limit_sign t ts h0 h : 0 < (ts - t) * h0 ->
  h = (if Rltb 0 (rnd (rnd (rnd (t + h0) - ts) * h0))
       then rnd (rnd (ts - t) * rnd (1 - rnd (4 * / 4503599627370496))) else h0) -> 0 < h * h0.
Proof.
  intros P E. destruct (Rltb 0 _).
  - destruct (cut_rnd (ts - t)) as (q & Eq & Hq). rewrite E, Eq. replace (q * (ts - t) * h0) with (q * ((ts - t) * h0)) by ring. nra.
  - rewrite E. apply sq_pos. intros Q. rewrite Q in P. lra.
Qed.

(** Shorter steps end earlier. *)
Lemma shorter_rnd t ts h q : h <> 0 -> 0 < q <= 1 -> (rnd (t + h) - ts) * h <= 0 -> (rnd (t + q * h) - ts) * (q * h) <= 0.
Proof.
  intros Hh Hq Hs. destruct (Rtotal_order h 0) as [A|[A|A]]; [|contradiction|].
  - assert (Q : t + h <= t + q * h) by nra. apply (rg_mono _ _ Hg) in Q. apply side_neg in Hs; [|exact A].
    assert (Hn : q * h < 0) by nra. set (z := q * h) in *. clearbody z. set (y := rnd (t + z)) in *. clearbody y. nra.
  - assert (Q : t + q * h <= t + h) by nra. apply (rg_mono _ _ Hg) in Q. apply side_pos in Hs; [|exact A].
    assert (Hn : 0 < q * h) by nra. set (z := q * h) in *. clearbody z. set (y := rnd (t + z)) in *. clearbody y. nra.
Qed.

(** Steps lead forwards or nowhere. *)
Lemma forward_rnd t h : rnd t = t -> 0 <= (rnd (t + h) - t) * h.
Proof.
  intros Rt. destruct (Rle_or_lt 0 h) as [Q|Q].
  - assert (Q1 : t <= t + h) by lra. apply (rg_mono _ _ Hg) in Q1. nra.
  - assert (Q1 : t + h <= t) by lra. apply (rg_mono _ _ Hg) in Q1. nra.
Qed.

(** The maximal step size, up to two roundings. *)
Definition slack : R := / (1 - u) * / (1 - u).

Lemma slack_ge_1 : 1 <= / (1 - u) <= slack.
Proof. pose proof (q_ge_1 u rnd Hr). unfold slack. nra. Qed.

Lemma cap_rnd hi x : x <> 0 -> 1 < rnd (Rabs x * hi) ->
  Rabs (rnd (x / rnd (Rabs x * hi))) * hi <= slack /\ 0 < rnd (x / rnd (Rabs x * hi)) * x.
Proof.
  intros Hx H1. set (r := rnd (Rabs x * hi)) in *.
  assert (Hp : 0 < Rabs x * hi) by (apply rnd_pos_inv; fold r; lra).
  pose proof (Rabs_pos_lt _ Hx) as Ha. assert (Hh : 0 < hi) by nra.
  destruct (rnd_near u rnd Hr (Rabs x * hi)) as (c & Ec & Nc). fold r in Ec.
  destruct (rnd_near u rnd Hr (x / r)) as (d & Ed & Nd). pose proof (near_pos u rnd Hr _ _ Nc) as Pc.
  pose proof (near_pos u rnd Hr _ _ Nd) as Pd. rewrite Ed. split.
  - unfold Rdiv. rewrite !Rabs_mult, Rabs_inv, (Rabs_pos_eq r), (Rabs_pos_eq d) by lra. rewrite Ec.
    replace (Rabs x * / (Rabs x * hi * c) * d * hi) with (d * / c) by (field; lra).
    apply near_inv with (1 := Hr) in Nc. destruct Nc as (_ & Nc), Nd as (_ & Nd). rewrite !pow_1 in *.
    unfold slack. apply Rmult_le_compat; try lra. left. apply Rinv_0_lt_compat. exact Pc.
  - replace (x / r * d * x) with (x * x * (d * / r)) by (field; lra). pose proof (sq_pos _ Hx).
    assert (0 < / r) by (apply Rinv_0_lt_compat; lra). apply Rmult_lt_0_compat; nra.
Qed.

Lemma below_rnd hi x : rnd (Rabs x * hi) <= 1 -> Rabs x * hi <= slack.
Proof.
  intros H1. pose proof slack_ge_1. destruct (Rle_or_lt (Rabs x * hi) 0) as [Q|Q]; [lra|].
  destruct (rnd_near u rnd Hr (Rabs x * hi)) as (c & Ec & Nc). pose proof (near_pos u rnd Hr _ _ Nc) as Pc.
  rewrite Ec in H1. apply near_inv with (1 := Hr) in Nc. destruct Nc as (_ & Nc). rewrite pow_1 in Nc.
  apply Rle_trans with (/ c); [|lra]. apply Rmult_le_reg_r with c; [exact Pc|]. rewrite Rinv_l by lra. exact H1.
Qed.

Lemma abs_mono_slack a b hi : Rabs a <= Rabs b -> Rabs b * hi <= slack -> Rabs a * hi <= slack.
Proof. intros A B. pose proof slack_ge_1. pose proof (Rabs_pos a). destruct (Rle_or_lt 0 hi); nra. Qed.

Lemma shrink_rnd h q hi : h <> 0 -> 0 < q <= 1 -> Rabs h * hi <= slack ->
  q * h <> 0 /\ Rabs (q * h) * hi <= slack /\ 0 < (q * h) * h.
Proof.
  intros Hh Hq Hi. pose proof (sq_pos _ Hh). split; [apply Rmult_integral_contrapositive; split; [lra|assumption]|]. split; [|nra].
  apply abs_mono_slack with h; [|exact Hi]. rewrite Rabs_mult, (Rabs_right q) by lra.
  pose proof (Rabs_pos h). nra.
Qed.

(** A factor of at most 0.9 shortens. *)
Lemma times_rnd h q : 0 < q <= rnd (9 / 10) -> exists q', 0 < q' <= 1 /\ rnd (h * q) = q' * h.
Proof.
  intros (Hq0 & Hq). destruct (rnd_near u rnd Hr (h * q)) as (c & Ec & Nc). pose proof (near_pos u rnd Hr _ _ Nc) as Pc.
  destruct (rnd_near u rnd Hr (9 / 10)) as (d & Ed & Nd). rewrite Ed in Hq.
  exists (c * q). rewrite Ec. split; [|ring]. split; [nra|].
  destruct Nc as (_ & Nc), Nd as (_ & Nd). rewrite pow_1 in *. pose proof (rg_prec _ _ Hg). destruct (u_range u rnd Hr) as (Hu0 & _).
  assert (Hb : / (1 - u) <= 101 / 100).
  { apply Rmult_le_reg_r with (1 - u); [lra|]. rewrite Rinv_l by lra. lra. }
  assert (q <= 91 / 100) by lra. assert (c <= 101 / 100) by lra. nra.
Qed.

Local Instance SR : Scalar R := ScalarRnd rnd.

Lemma dbl_rnd hi h : h <> 0 -> Rabs h * hi <= slack ->
  dbl hi h <> 0 /\ Rabs (dbl hi h) * hi <= slack /\ 0 < dbl hi h * h.
Proof.
  intros Hh Hi. pose proof (sq_pos _ Hh). unfold dbl. cbn [sabs smul stwo sltb sone sdiv SR ScalarRnd]. cbv zeta.
  assert (Hd : 0 < rnd (2 * h) * h) by (apply rnd_same; lra).
  set (x := rnd (2 * h)) in *. assert (Hx : x <> 0) by (intros Q; rewrite Q in Hd; lra). clearbody x.
  destruct (Rltb 1 (rnd (Rabs x * hi))) eqn:Eb.
  - apply Rltb_true in Eb. destruct (cap_rnd hi x Hx Eb) as (A & B). set (y := rnd (x / rnd (Rabs x * hi))) in *. clearbody y.
    split; [intros Q; rewrite Q in B; lra|]. split; [exact A|].
    destruct (same_sign_cases _ _ B) as [(?&?)|(?&?)], (same_sign_cases _ _ Hd) as [(?&?)|(?&?)]; try lra; nra.
  - apply Rltb_false, below_rnd in Eb. auto.
Qed.

Lemma next_h_rnd hi h h' : h <> 0 -> Rabs h * hi <= slack -> next_h hi h h' ->
  h' <> 0 /\ Rabs h' * hi <= slack /\ 0 < h' * h.
Proof.
  intros Hh Hi N. pose proof (sq_pos _ Hh). destruct N as [-> |[-> |(r & _ & ->)]].
  - split; [assumption|]. split; [assumption|]. nra.
  - exact (dbl_rnd hi h Hh Hi).
  - cbn [smul smax smin shalf spt9 SR ScalarRnd].
    destruct (times_rnd h (Rmax (/ 2) (Rmin r (rnd (9 / 10))))) as (q & Hq & ->).
    { split; [apply Rlt_le_trans with (/ 2); [lra|apply Rmax_l]|]. apply Rmax_lub; [|apply Rmin_r].
      destruct (rnd_near u rnd Hr (9 / 10)) as (d & -> & (Nd & _)). rewrite pow_1 in Nd. pose proof (rg_prec _ _ Hg). lra. }
    exact (shrink_rnd h q hi Hh Hq Hi).
Qed.

Lemma factor_rnd h f r : (1 <= f)%nat -> factor f r -> exists q, 0 < q <= 1 /\ rnd (h * r) = q * h.
Proof.
  intros Hf (F1 & F2).
  assert (Q9 : / 4 <= rnd (9 / 10)).
  { destruct (rnd_near u rnd Hr (9 / 10)) as (d & -> & (Nd & _)). rewrite pow_1 in Nd. pose proof (rg_prec _ _ Hg). lra. }
  apply times_rnd. destruct (Nat.eq_dec f 1) as [E|E].
  - destruct (F1 E) as (q & ->). cbn [smax smin squarter spt9 SR ScalarRnd].
    split; [apply Rlt_le_trans with (/ 4); [lra|apply Rmax_l]|]. apply Rmax_lub; [exact Q9|apply Rmin_l].
  - rewrite F2 by lia. cbn. lra.
Qed.
End Arith.

Section StepRnd.
Variables (u : R) (rnd : R -> R).
Hypothesis Hg : regular u rnd.
Let Hr := rg_err _ _ Hg.
Local Instance SRn : Scalar R := ScalarRnd rnd.
Context {LSt NSt : Type} `{LSolver R LSt} `{NLSolver R NSt}.
Variable prob : problem R.
Variable ewt_set : list R -> list R.
Notation n := (model_size prob).
Notation state := (ida R LSt NSt).
Notation tr st := (trace (lp (nlp st))).
Notation slack := (slack u).

(** ** The first step *)
Lemma first_step_rnd (st st' : state) tout :
  first_step st tout = Ret (inr st') ->
  let h := hh st' in let t := tn (nlp st) in
  0 < (tout - t) * h /\ (hin st <> 0 -> 0 < h * hin st) /\
  ((forall ts, tstop st = Some ts -> rnd ts = ts) ->
   Rabs h * hmax_inv st <= slack /\
   (forall ts, tstop st = Some ts -> 0 < (ts - t) * h /\ (rnd (t + h) - ts) * h <= 0)).
Proof.
  unfold first_step. cbn [sabs ssub seqb szero sltb stwo seps smul sadd SRn ScalarRnd].
  set (t := tn (nlp st)). set (td := Rabs (rnd (tout - t))).
  destruct (Reqb td 0) eqn:E0; [discriminate|]. apply Reqb_false in E0.
  destruct (Rltb td _) eqn:E1; [discriminate|]. clear E1.
  assert (Hd : rnd (tout - t) <> 0) by (intros Q; apply E0; unfold td; rewrite Q; apply Rabs_R0).
  assert (Htd : 0 < td) by (apply Rabs_pos_lt; exact Hd).
  assert (Hto : tout - t <> 0) by (intros Q; apply Hd; rewrite Q; apply (rnd_0 u rnd Hr)).
  destruct (sneqb _ _ && _) eqn:E2; [discriminate|].
  intros E. apply bind_ret_inv in E as (s1 & E3 & E).
  (* the step before the hmax reduction *)
  assert (S1 : exists h1, s1 = set_hh h1 st /\ 0 < (tout - t) * h1 /\ (hin st <> 0 -> h1 = hin st)).
  { cbn [hh set_hh seqb szero SRn ScalarRnd] in E2, E3. destruct (Reqb (hin st) 0) eqn:E4.
    - apply Reqb_true in E4. apply bind_ret_inv in E3 as (p1 & Ep & E3). apply ret_inj in E3.
      cbn [phi set_hh idv ewt nlp suppressalg hh tn sltb stwo sdiv shalf sneg spt001 smul SRn ScalarRnd] in E3, Ep.
      set (yn := wrms_norm (idv st) p1 (ewt (nlp st)) (suppressalg st)) in *.
      fold t in E3.
      set (h0 := rnd (rnd (/ 1000) * td)) in *.
      assert (Hh0 : 0 < h0).
      { unfold h0. apply (rnd_pos u rnd Hg). apply Rmult_lt_0_compat; [apply (rnd_pos u rnd Hg); lra|exact Htd]. }
      assert (Hq : exists h1, 0 < h1 /\ s1 = set_hh (if Rltb tout t then - h1 else h1) st).
      { destruct (Rltb (rnd (2 / h0)) yn) eqn:E5.
        - apply Rltb_true in E5. exists (rnd (/ 2 / yn)).
          assert (0 < rnd (2 / h0)) by (apply (rnd_pos u rnd Hg), Rdiv_lt_0_compat; lra). split.
          + apply (rnd_pos u rnd Hg), Rdiv_lt_0_compat; lra.
          + cbn [nlp set_hh hh] in E3. fold t in E3. rewrite <- E3. destruct (Rltb tout t); reflexivity.
        - exists h0. split; [exact Hh0|].
          cbn [nlp set_hh hh] in E3. fold t in E3. rewrite <- E3. destruct (Rltb tout t); reflexivity. }
      destruct Hq as (h1 & Q1 & ->). eexists. split; [reflexivity|]. split; [|intros; contradiction].
      destruct (Rltb tout t) eqn:E6.
      + apply Rltb_true in E6. nra.
      + apply Rltb_false in E6. nra.
    - apply Reqb_false in E4. apply ret_inj in E3. exists (hin st). split; [congruence|]. split; [|auto].
      unfold sneqb in E2. cbn [seqb SRn ScalarRnd] in E2. apply Reqb_false in E4. rewrite E4 in E2. cbn [negb andb] in E2.
      apply Rltb_false in E2. cbn [nlp set_hh] in E2. fold t in E2.
      apply Reqb_false in E4.
      assert (N : (tout - t) * hin st <> 0) by (apply Rmult_integral_contrapositive; auto).
      destruct (Rtotal_order ((tout - t) * hin st) 0) as [Q|[Q|Q]]; [exfalso|contradiction|exact Q].
      assert (rnd (tout - t) * hin st < 0).
      { destruct (rnd_near u rnd Hr (tout - t)) as (d & -> & Nd). pose proof (near_pos u rnd Hr _ _ Nd).
        replace ((tout - t) * d * hin st) with (d * ((tout - t) * hin st)) by ring. nra. }
      pose proof (rnd_neg u rnd Hg _ H1). lra. }
  destruct S1 as (h1 & -> & P1 & P3). clear E2 E3.
  assert (Hh1 : h1 <> 0) by (intros ->; lra).
  cbn [hh set_hh hmax_inv nlp tstop sone sdiv sltb SRn ScalarRnd] in E.
  set (hi := hmax_inv st) in *.
  (* the hmax reduction *)
  assert (S2 : exists h2, 0 < h2 * h1 /\ Rabs h2 * hi <= slack /\
    (if Rltb 1 (rnd (Rabs h1 * hi)) then set_hh (rnd (h1 / rnd (Rabs h1 * hi))) (set_hh h1 st) else set_hh h1 st) = set_hh h2 st).
  { destruct (Rltb 1 (rnd (Rabs h1 * hi))) eqn:E5.
    - apply Rltb_true in E5. destruct (cap_rnd u rnd Hg hi h1 Hh1 E5) as (A & B). eexists. split; [exact B|]. split; [exact A|reflexivity].
    - apply Rltb_false in E5. exists h1. split; [exact (sq_pos _ Hh1)|]. split; [exact (below_rnd u rnd Hg _ _ E5)|reflexivity]. }
  destruct S2 as (h2 & N2 & Q2 & Es). rewrite Es in E. clear Es.
  assert (N1 : h2 <> 0) by (intros ->; lra).
  assert (G : forall h, 0 < h * h2 -> 0 < (tout - t) * h /\ (hin st <> 0 -> 0 < h * hin st)).
  { intros h Hq. split; [|intros Hz; rewrite <- (P3 Hz)];
    destruct (same_sign_cases _ _ P1) as [(?&?)|(?&?)], (same_sign_cases _ _ N2) as [(?&?)|(?&?)],
      (same_sign_cases _ _ Hq) as [(?&?)|(?&?)]; try lra; nra. }
  destruct (tstop st) as [ts|] eqn:Ets.
  - cbn [tstop set_hh] in E. rewrite Ets in E.
    cbn [hh set_hh nlp sleb SRn ScalarRnd] in E. fold t in E.
    destruct (Rleb _ 0) eqn:E7; [discriminate|]. apply Rleb_false in E7. apply ret_inj in E. injection E as <-.
    apply (rnd_pos_inv u rnd Hg), (rnd_same_inv u rnd Hg) in E7.
    assert (Hl : hh (limit_to_tstop (set_hh h2 st) ts) =
      if Rltb 0 (rnd (rnd (rnd (t + h2) - ts) * h2)) then rnd (rnd (ts - t) * rnd (1 - rnd (4 * / 4503599627370496))) else h2).
    { unfold limit_to_tstop. cbn [hh set_hh nlp sltb szero smul sadd ssub sone sfour seps SRn ScalarRnd]. fold t.
      destruct (Rltb 0 _); reflexivity. }
    cbv zeta. set (h := hh _) in *. clearbody h.
    destruct (G h (limit_sign u rnd Hg t ts h2 h E7 Hl)) as (G1 & G3). split; [exact G1|]. split; [exact G3|]. intros Hts.
    destruct (limit_rnd u rnd Hg t ts h2 h (Hts ts eq_refl) N1) as (L3 & L4 & q & Hq & Eq); [lra|intros ->; lra|exact Hl|].
    split; [rewrite Eq; apply (shrink_rnd u rnd Hg h2 q hi N1 Hq Q2)|].
    intros ts' Q. injection Q as <-. split; [lra|assumption].
  - cbn [tstop set_hh] in E. rewrite Ets in E. apply ret_inj in E. injection E as <-. cbv zeta. cbn [hh set_hh].
    destruct (G h2 (sq_pos _ N1)) as (G1 & G3). split; [exact G1|]. split; [exact G3|]. intros _.
    split; [exact Q2|]. intros ts Q. discriminate.
Qed.

Lemma first_call_h0u (a s : state) tout m : first_call prob ewt_set a tout = Ret (inl (s, m)) -> h0u s = h0u a.
Proof.
  intros E. unfold first_call in E. apply bind_ret_inv in E as (s0 & E0 & E). apply bind_ret_inv in E as (r & E1 & E).
  assert (K0 : h0u s0 = h0u a).
  { destruct (setup_done a); [apply ret_inj in E0; subst; auto 10|].
    apply bind_ret_inv in E0 as (s2 & E2 & E0). apply ret_inj in E0. subst s0. clear -E2.
    unfold initial_setup in E2. cbv zeta in E2. minv; cbn; auto 10. }
  rewrite <- K0. destruct r as [(s1 & m1)|s1].
  - apply ret_inj in E. injection E as -> ->. clear -E1. unfold first_step in E1. cbv zeta in E1.
    repeat match type of E1 with
    | (if ?b then _ else _) = _ => destruct b; [apply ret_inj in E1; injection E1 as <- _; reflexivity|]
    end.
    apply bind_ret_inv in E1 as (s3 & E3 & E1).
    assert (K3 : h0u s3 = h0u s0).
    { destruct (_ =? _)%sc; [|apply ret_inj in E3; subst; reflexivity]. apply bind_ret_inv in E3 as (p & _ & E3).
      apply ret_inj in E3. subst s3. repeat match goal with |- context [if ?b then _ else _] => destruct b end; reflexivity. }
    rewrite <- K3. clear -E1. destruct (sone <? _)%sc; cbn [tstop set_hh nlp hh] in E1;
      (destruct (tstop s3); [|discriminate]; destruct (_ <=? _)%sc; [|discriminate]; apply ret_inj in E1; injection E1 as <- _; reflexivity).
  - apply bind_ret_inv in E as (s2 & E2 & E). apply bind_ret_inv in E as (p1 & E3 & E).
    apply bind_ret_inv in E as (ph & E4 & E). discriminate.
Qed.

Lemma first_call_rnd (a s : state) tout :
  first_call prob ewt_set a tout = Ret (inr s) ->
  let h := hh s in let t := tn (nlp a) in
  h0u s = h /\
  0 < (tout - t) * h /\ (hin a <> 0 -> 0 < h * hin a) /\
  ((forall ts, tstop a = Some ts -> rnd ts = ts) ->
   Rabs h * hmax_inv a <= slack /\
   (forall ts, tstop a = Some ts -> 0 < (ts - t) * h /\ (rnd (t + h) - ts) * h <= 0)).
Proof.
  intros E. pose proof (first_call_frame _ _ _ _ _ E) as Fr. cbv zeta in Fr.
  destruct Fr as (_ & _ & Fw & _ & _ & _ & _ & Fh & _).
  unfold first_call in E. apply bind_ret_inv in E as (s0 & E0 & E). apply bind_ret_inv in E as (r & E1 & E).
  destruct r as [(?&?)|s1]; [discriminate|].
  assert (K0 : hmax_inv s0 = hmax_inv a /\ tn (nlp s0) = tn (nlp a) /\ tstop s0 = tstop a /\ hin s0 = hin a).
  { destruct (setup_done a); [apply ret_inj in E0; subst; auto 10|].
    apply bind_ret_inv in E0 as (s2 & E2 & E0). apply ret_inj in E0. subst s0. clear -E2.
    unfold initial_setup in E2. cbv zeta in E2. minv; cbn; auto 10. }
  destruct K0 as (K1 & K2 & K3 & K4).
  pose proof (first_step_rnd _ _ _ E1) as FR. cbv zeta in FR.
  rewrite K1, K2, K3, K4 in FR.
  assert (Kh : hh s = hh s1).
  { apply bind_ret_inv in E as (s2 & E2 & E). apply bind_ret_inv in E as (p1 & E3 & E).
    apply bind_ret_inv in E as (ph & E4 & E). apply ret_inj in E. injection E as <-.
    cbn [hh set_eps_newt set_phi on_nlp set_nlp].
    destruct (0 <? _)%nat; [|apply ret_inj in E2; subst s2; reflexivity].
    apply r_check1_frame in E2. destruct E2 as ((E2 & _) & _). apply core_fields in E2.
    transitivity (hh (set_kused 0 (set_kk 0 (set_h0u (hh s1) s1)))); [tauto|reflexivity]. }
  cbv zeta. rewrite Kh in *. split; [exact Fh|exact FR].
Qed.

(** ** The invariant *)
Hypothesis Hl : @nls_lawful R NSt _.
Variable c : @config R.
Hypothesis Hc : config_ok c.
Hypothesis Ht0 : rnd (g_t0 c) = g_t0 c.
Hypothesis Hts : forall ts, g_tstop c = Some ts -> rnd ts = ts.
Notation hi := (g_hmax_inv c).
Notation t0 := (g_t0 c).
Notation now := (now c).

(** [t] is the rounded sum of the time reached and the latest step size, and
    does not lie behind that time. *)
Definition rounded_time (t : R) (past : list (event R)) : Prop :=
  exists h k, last_try past = Some (now past, h, k) /\ t = rnd (now past + h) /\ 0 <= (t - now past) * h.

Definition dlegal (e : event R) (past : list (event R)) : Prop :=
  match e with
  | CTry t h k => h <> 0 /\ Rabs h * hi <= slack /\ Forall (fun a => 0 < h * a_h a) (steps past)
  | CStep t _ => rounded_time t past
  | CRes t _ _ => rounded_time t past
  | _ => True
  end.

(** Residuals are evaluated and steps end between the initial time and [ts]. *)
Definition between (ts t : R) : Prop := Rmin t0 ts <= t <= Rmax t0 ts.
Definition within (ts : R) (e : event R) : Prop :=
  match e with CRes t _ _ | CStep t _ => between ts t | _ => True end.

Record dl (o : option (R * nat)) (st : state) : Prop := mkdl {
  dl_every : every dlegal (tr st);
  dl_tn : rnd (tn (nlp st)) = tn (nlp st);
  dl_h0u : h0u st <> 0 -> Rabs (h0u st) * hi <= slack;
  dl_h : (nst st <> 0%nat \/ o <> None) -> hh st <> 0 /\ Rabs (hh st) * hi <= slack;
  dl_sign : Forall (fun a => 0 < hh st * a_h a) (steps (tr st));
  dl_stop : forall ts, tstop st = Some ts ->
    between ts (tn (nlp st)) /\ Forall (within ts) (tr st) /\
    (nst st <> 0%nat \/ o <> None -> 0 < (ts - t0) * hh st) /\
    (o <> None -> (rnd (tn (nlp st) + hh st) - ts) * hh st <= 0) }.

Definition D o (st : state) : Prop := tlink prob c o st /\ dl o st.

Lemma tstop_rep o (st : state) ts : tlink prob c o st -> tstop st = Some ts -> rnd ts = ts.
Proof. intros L E. apply Hts. destruct (tl_tstop _ _ _ _ L); congruence. Qed.

Lemma dl_quiet (a b : state) evs : tlink prob c None a -> dl None a ->
  tstop b = tstop a \/ tstop b = None -> tr b = evs ++ tr a ->
  Forall (fun e => is_root e || is_warn e = true) evs ->
  tn (nlp b) = tn (nlp a) -> nst b = nst a -> (nst a <> 0%nat -> hh b = hh a) ->
  (h0u b <> 0 -> Rabs (h0u b) * hi <= slack) -> dl None b.
Proof.
  intros L [R1 R2 R0 R3 R4 R5] C2 C3 C4 C5 C6 C7 C8.
  assert (Cq : Forall (fun e => calm e = true) evs).
  { eapply Forall_impl; [|exact C4]. intros e; destruct e; cbn; congruence. }
  destruct (calm_app evs (tr a) Cq) as (_ & _ & A3 & A4). pose proof (tl_n _ _ _ _ L) as Ln.
  assert (Hs : steps (tr a) = [] \/ hh b = hh a).
  { destruct (steps (tr a)); [auto|]. right. apply C7. rewrite <- Ln. discriminate. }
  constructor; rewrite ?C3, ?A3, ?A4, ?C5, ?C6.
  - apply every_app; [|exact R1]. intros e q Hi. eapply Forall_forall in C4; [|exact Hi].
    destruct e; cbn in *; auto; discriminate.
  - exact R2.
  - exact C8.
  - intros [Hz|Hz]; [|congruence]. rewrite (C7 Hz). auto.
  - destruct Hs as [-> | ->]; [constructor|exact R4].
  - intros ts Et. destruct (R5 ts) as (B1 & B2 & B3 & B4); [destruct C2; congruence|].
    split; [exact B1|]. split; [|split; [|congruence]].
    + apply Forall_app. split; [|exact B2]. eapply Forall_impl; [|exact C4]. intros e; destruct e; cbn; auto; discriminate.
    + intros [Hz|Hz]; [|congruence]. rewrite (C7 Hz). auto.
Qed.

Lemma D_new yy0 yp0 : i_new prob D c yy0 yp0.
Proof.
  intros st E. split; [exact (tlink_new prob c yy0 yp0 st E)|].
  pose proof (tl_tn _ _ _ _ (tlink_new prob c yy0 yp0 st E)) as Etn.
  pose proof (new_fields prob _ _ _ E) as F.
  destruct F as (_ & _ & _ & F4 & _ & _ & _ & _ & _ & F10 & _).
  assert (Et : tr (configure c st) = []) by exact F10. assert (En : nst (configure c st) = 0%nat) by exact F4.
  rewrite Et in Etn. cbn in Etn.
  constructor; rewrite ?Et, ?En.
  - apply every_nil.
  - change (tn (nlp (configure c st)) = t0) in Etn. rewrite Etn. exact Ht0.
  - intros X. exfalso. apply X. unfold ida_new in E. destruct (_ && _); [|discriminate]. injection E as <-. reflexivity.
  - intros [X|X]; congruence.
  - constructor.
  - intros ts _. change (tn (nlp (configure c st)) = t0) in Etn. rewrite Etn. split; [unfold between; split; [apply Rmin_l|apply Rmax_l]|].
    split; [constructor|]. split; [intros [X|X]; congruence|congruence].
Qed.

Lemma D_shell : i_shell prob D.
Proof.
  intros a b Ho (L & R) S. split; [exact (tlink_shell prob c a b Ho L S)|].
  destruct (sh_trace _ _ _ S) as (evs & T1 & T2 & _).
  pose proof (core_fields _ _ (sh_core _ _ _ S)) as E.
  apply (dl_quiet a b evs L R); try tauto; [apply (sh_tstop _ _ _ S)|].
  assert (Q : h0u b = h0u a).
  { pose proof (sh_core _ _ _ S) as X. unfold core in X. cbv zeta in X. injection X. auto. }
  rewrite Q. exact (dl_h0u _ _ R).
Qed.

(** On the way to the stop time. *)
Lemma between_side ts t h : between ts t -> 0 < (ts - t0) * h -> (t - ts) * h <= 0 /\ 0 <= (t - t0) * h.
Proof.
  intros (B1 & B2) P. destruct (same_sign_cases _ _ P) as [(A & B)|(A & B)].
  - rewrite Rmin_left in B1 by lra. rewrite Rmax_right in B2 by lra. split; nra.
  - rewrite Rmin_right in B1 by lra. rewrite Rmax_left in B2 by lra. split; nra.
Qed.

Lemma side_between ts t h : 0 < (ts - t0) * h -> (t - ts) * h <= 0 -> 0 <= (t - t0) * h -> between ts t.
Proof.
  intros P S1 S2. unfold between. destruct (same_sign_cases _ _ P) as [(A & B)|(A & B)].
  - rewrite Rmin_left, Rmax_right by lra. assert (t - ts <= 0) by (apply (side_pos _ h); assumption).
    destruct (Rle_or_lt 0 (t - t0)); [lra|]. exfalso. nra.
  - rewrite Rmin_right, Rmax_left by lra. assert (0 <= t - ts) by (apply (side_neg _ h); assumption).
    destruct (Rle_or_lt (t - t0) 0); [lra|]. exfalso. nra.
Qed.

Lemma D_lims : i_lims D.
Proof.
  intros a b Ho (L & R) Hz S. split; [exact (tlink_lims prob c a b Ho L Hz S)|].
  destruct S as [(Ht & ->)|(ts & Ht & Hat & ->)]; [exact R|].
  destruct R as [R1 R2 R0 R3 R4 R5].
  assert (Hl' : limit_to_tstop a ts = set_hh (hh (limit_to_tstop a ts)) a).
  { unfold limit_to_tstop. destruct (_ <? _)%sc; [reflexivity|]. destruct a; reflexivity. }
  assert (Hh : hh (limit_to_tstop a ts) = if Rltb 0 (rnd (rnd (rnd (tn (nlp a) + hh a) - ts) * hh a))
     then rnd (rnd (ts - tn (nlp a)) * rnd (1 - rnd (4 * / 4503599627370496))) else hh a).
  { unfold limit_to_tstop. cbn [sltb szero smul sadd ssub sone sfour seps SRn ScalarRnd].
    destruct (Rltb _ _); reflexivity. }
  rewrite Hl'. set (h := hh (limit_to_tstop a ts)) in *. clearbody h. clear Hl'.
  destruct (R3 (or_introl Hz)) as (R3a & R3b). destruct (R5 _ Ht) as (B1 & B2 & B3 & _). specialize (B3 (or_introl Hz)).
  assert (Hne : tn (nlp a) <> ts).
  { intros E. unfold at_tstop in Hat. cbn [sleb sabs ssub smul shundred seps sadd SRn ScalarRnd] in Hat.
    rewrite E in Hat. apply Rleb_false in Hat. rewrite (Rminus_diag_eq ts ts), (rnd_0 u rnd Hr), Rabs_R0 in Hat by reflexivity.
    assert (0 <= rnd (rnd (100 * / 4503599627370496) * rnd (Rabs ts + Rabs (hh a)))); [|lra].
    apply (rnd_nonneg u rnd Hg). pose proof (Rabs_pos ts). pose proof (Rabs_pos (hh a)).
    apply Rmult_le_pos; apply (rnd_nonneg u rnd Hg); lra. }
  destruct (between_side _ _ _ B1 B3) as (S1 & S2).
  destruct (limit_rnd u rnd Hg _ _ _ _ (tstop_rep _ _ _ L Ht) R3a S1 Hne Hh) as (A3 & A4 & q & A5 & A6).
  assert (Hsg : forall x, 0 < hh a * x -> 0 < h * x) by (intros x Hx; rewrite A6; replace (q * hh a * x) with (q * (hh a * x)) by ring; nra).
  constructor; cbn [hh set_hh nlp nst tstop].
  - exact R1.
  - exact R2.
  - exact R0.
  - intros _. rewrite A6. destruct (shrink_rnd u rnd Hg (hh a) q hi R3a A5 R3b). tauto.
  - eapply Forall_impl; [|exact R4]. intros x. cbn. apply Hsg.
  - intros ts' Et. assert (ts' = ts) by congruence. subst ts'. split; [exact B1|]. split; [exact B2|].
    split; [|congruence]. intros _. rewrite Rmult_comm. apply Hsg. lra.
Qed.

Lemma D_first : i_first prob ewt_set D.
Proof.
  intros a tout x Ho (L & R) Hz E. split; [exact (tlink_first prob ewt_set c a tout x Ho L Hz E)|].
  assert (Hh : match x with inl (s, _) => h0u s = h0u a | inr s => Rabs (h0u s) * hi <= slack end).
  { destruct x as [(s & m)|s]; [exact (first_call_h0u _ _ _ _ E)|].
    destruct (first_call_rnd _ _ _ E) as (Q1 & _ & _ & Q2). rewrite Q1.
    destruct (tl_cfg _ _ _ _ L) as (_ & _ & _ & Q & _). rewrite <- Q. apply Q2. intros ts. exact (tstop_rep _ _ _ L). }
  apply first_call_frame in E. cbv zeta in E. destruct E as (F1 & _ & _ & _ & F2).
  set (b := match x with inl (s, _) => s | inr s => s end) in *.
  assert (Ht : exists evs, tr b = evs ++ tr a /\ Forall (fun e => is_root e || is_warn e = true) evs).
  { destruct x as [(s & m)|s]; subst b.
    - destruct F2 as (_ & _ & _ & F2 & _). exists []. rewrite F2. auto.
    - destruct F2 as (_ & _ & _ & _ & _ & _ & evs & F3 & F4 & _). exists evs. split; [exact F3|].
      eapply Forall_impl; [|exact F4]. cbn. intros e ->. reflexivity. }
  destruct Ht as (evs & T1 & T2). apply fkeep_fields in F1.
  apply (dl_quiet a b evs L R); try solve [intuition congruence].
  intros X. subst b. destruct x as [(s & m)|s]; [rewrite Hh in *; exact (dl_h0u _ _ R X)|exact Hh].
Qed.

(** The step size when the first-call block has just been passed. *)
Lemma fresh_first_rnd (st : state) : fresh prob ewt_set st -> nst st = 0%nat -> D None st ->
  hh st <> 0 /\ Rabs (hh st) * hi <= slack /\
  (forall ts, tstop st = Some ts -> 0 < (ts - t0) * hh st).
Proof.
  intros [F|(a & tout & s & Ha & E & S)] Hz (L & R); [contradiction|].
  pose proof (sh_core _ _ _ S) as Hu. assert (Q0 : h0u st = h0u s).
  { unfold core in Hu. cbv zeta in Hu. injection Hu. auto. }
  apply core_fields in Hu. destruct Hu as (_ & _ & _ & _ & _ & _ & _ & _ & _ & _ & _ & _ & D1 & _ & _ & _ & _ & _ & D2 & _).
  pose proof (first_call_frame _ _ _ _ _ E) as Fr. cbv zeta in Fr. destruct Fr as (F1 & _).
  apply fkeep_fields in F1.
  assert (Htn : tn (nlp st) = t0).
  { rewrite (tl_tn _ _ _ _ L). unfold IdaTrace.now. pose proof (tl_n _ _ _ _ L) as Ln. rewrite Hz in Ln.
    destruct (steps (tr st)); [reflexivity|discriminate]. }
  assert (Hsa : tn (nlp s) = tn (nlp a)) by intuition congruence.
  destruct (first_call_rnd _ _ _ E) as (P0 & P1 & _ & P2).
  assert (N : hh s <> 0) by (intros Q; rewrite Q in P1; lra).
  rewrite D1. split; [exact N|]. split.
  - rewrite <- P0, <- Q0. apply (dl_h0u _ _ R). rewrite Q0, P0. exact N.
  - intros ts Ets. assert (Hta : tstop a = Some ts).
    { destruct (sh_tstop _ _ _ S) as [Q|Q]; [|congruence]. intuition congruence. }
    assert (P3 : forall ts, tstop a = Some ts -> rnd ts = ts).
    { intros ts' Q. rewrite Hta in Q. injection Q as <-. exact (tstop_rep _ _ _ L Ets). }
    destruct (P2 P3) as (_ & P5). destruct (P5 ts Hta) as (P6 & _). rewrite <- Htn, D2, Hsa. exact P6.
Qed.

Lemma D_begin : i_begin prob ewt_set D.
Proof.
  intros st Ho (L & R) Hlim Hfr. split; [exact (tlink_begin prob ewt_set c st Ho L Hlim Hfr)|].
  assert (Hff := fresh_first_rnd st Hfr).
  destruct (init_fields st) as (F1 & F2 & F3 & F4 & F5 & F6 & F7 & F8 & F9 & F10 & F11 & F12 & F13 & F14 &
    F15 & F16 & F17 & F18 & F19 & _).
  apply outer_fields in F2. destruct F2 as (_ & F2 & Fu & _).
  assert (Hh : hh st <> 0 /\ Rabs (hh st) * hi <= slack /\
     (forall ts, tstop st = Some ts -> 0 < (ts - t0) * hh st)).
  { destruct (Nat.eq_dec (nst st) 0) as [Hz|Hz].
    - exact (Hff Hz (conj L R)).
    - destruct (dl_h _ _ R (or_introl Hz)). split; [assumption|]. split; [assumption|].
      intros ts Et. destruct (dl_stop _ _ R ts Et) as (_ & _ & Q & _). auto. }
  destruct R as [R1 R2 R0 R3 R4 R5].
  destruct Hh as (A1 & A2 & A3).
  assert (Hst : forall ts, tstop st = Some ts -> (rnd (tn (nlp st) + hh st) - ts) * hh st <= 0).
  { intros ts Et. destruct (Hlim ts Et) as (h0 & Eh). specialize (A3 ts Et). destruct (R5 ts Et) as (B1 & _).
    cbn [sltb szero smul sadd ssub sone sfour seps SRn ScalarRnd] in Eh.
    destruct (Rltb _ _) eqn:Eb.
    - destruct (cut_rnd u rnd Hg (ts - tn (nlp st))) as (q & Eq & Hq). rewrite Eq in Eh.
      destruct (between_side _ _ _ B1 A3) as (S1 & _). set (t := tn (nlp st)) in *. clearbody t.
      set (h := hh st) in *. clearbody h. pose proof (Hts ts) as Rt.
      assert (Rts : rnd ts = ts) by exact (tstop_rep _ _ _ L Et).
      destruct (Rtotal_order h 0) as [A|[A|A]]; [|contradiction|].
      + apply side_neg in S1; [|exact A]. assert (Q : ts <= t + h) by (rewrite Eh; nra). apply (rg_mono _ _ Hg) in Q.
        rewrite Rts in Q. set (y := rnd (t + h)) in *. clearbody y. clear -Q A. nra.
      + apply side_pos in S1; [|exact A]. assert (Q : t + h <= ts) by (rewrite Eh; nra). apply (rg_mono _ _ Hg) in Q.
        rewrite Rts in Q. set (y := rnd (t + h)) in *. clearbody y. clear -Q A. nra.
    - apply Rltb_false, (rnd_le0_inv u rnd Hg) in Eb. rewrite Eh.
      destruct (Rle_or_lt ((rnd (tn (nlp st) + h0) - ts) * h0) 0) as [|Q]; [assumption|].
      apply (rnd_same u rnd Hg) in Q. lra. }
  constructor; rewrite ?F19, ?F8, ?F14, ?F7, ?F2, ?Fu.
  - apply every_cons; [exact I|exact R1].
  - exact R2.
  - exact R0.
  - auto.
  - exact R4.
  - intros ts Et. destruct (R5 ts Et) as (B1 & B2 & _). split; [exact B1|]. split; [constructor; [exact I|exact B2]|]. auto.
Qed.

(** One attempt. *)
Lemma dl_try (st st1 : state) t1 nef ck r :
  instep st -> D (Some (t1, nef)) st -> tried prob st st1 ck r -> attempted prob st st1 r ->
  exists evs, tr st1 = fails r ++ evs ++ CTry (tn (nlp st)) (hh st) (kk st) :: tr st /\
    Forall (fun e => calm e = true) evs /\ every dlegal (tr st1) /\
    tn_next st = rnd (tn (nlp st) + hh st) /\ 0 <= (tn_next st - tn (nlp st)) * hh st /\
    (forall ts, tstop st = Some ts -> between ts (tn_next st) /\ Forall (within ts) (tr st1)).
Proof.
  intros Hi (L & R) Htr (evs & A1 & A2 & _). pose proof (tl_tn _ _ _ _ L) as L4.
  destruct R as [R1 R2 R0 R3 R4 R5].
  assert (Ho : Some (t1, nef) <> None) by congruence.
  destruct (R3 (or_intror Ho)) as (B1 & B2).
  assert (Hn : tn_next st = rnd (tn (nlp st) + hh st)).
  { unfold tn_next. destruct (tstop st) as [ts|] eqn:Ets; [|reflexivity].
    destruct (R5 ts eq_refl) as (_ & _ & _ & R7). specialize (R7 Ho).
    cbn [sltb sone smul sadd ssub SRn ScalarRnd]. destruct (Rltb _ _) eqn:Eb; [|reflexivity].
    apply Rltb_true in Eb. exfalso.
    assert (Q : 0 < (rnd (tn (nlp st) + hh st) - ts) * hh st).
    { apply (rnd_same_inv u rnd Hg), (rnd_pos_inv u rnd Hg). lra. }
    lra. }
  assert (Hf : 0 <= (tn_next st - tn (nlp st)) * hh st) by (rewrite Hn; apply (forward_rnd u rnd Hg); exact R2).
  assert (Hb : forall ts, tstop st = Some ts -> between ts (tn_next st)).
  { intros ts Ets. destruct (R5 ts Ets) as (C1 & _ & C2 & C3). specialize (C2 (or_intror Ho)). specialize (C3 Ho).
    rewrite <- Hn in C3. destruct (between_side _ _ _ C1 C2) as (_ & C4). apply (side_between ts _ (hh st) C2 C3).
    replace ((tn_next st - t0) * hh st) with ((tn_next st - tn (nlp st)) * hh st + (tn (nlp st) - t0) * hh st) by ring. lra. }
  assert (Q : quiet_evs evs) by exact (call_in_callback prob ewt_set _ _ _ A2). pose proof (quiet_calm _ Q) as Qc.
  exists evs. split; [exact A1|]. split; [exact Qc|].
  assert (Ht : every dlegal (CTry (tn (nlp st)) (hh st) (kk st) :: tr st)).
  { apply every_cons; [|exact R1]. split; [exact B1|]. split; [exact B2|exact R4]. }
  assert (He : every dlegal (evs ++ CTry (tn (nlp st)) (hh st) (kk st) :: tr st)).
  { clear A1. revert A2 Qc. clear Q. induction evs as [|e evs IH]; intros A2 Qc; [exact Ht|].
    inversion A2 as [|? ? A3 A4]; subst. inversion Qc as [|? ? Q3 Q4]; subst. cbn.
    apply every_cons; [|exact (IH A4 Q4)]. destruct (calm_app evs (CTry (tn (nlp st)) (hh st) (kk st) :: tr st) Q4)
      as (S1 & S2 & S3 & S4).
    destruct e; cbn in A3 |- *; try contradiction; auto.
    destruct A3 as (-> & _). exists (hh st), (kk st). unfold IdaTrace.now. rewrite S1, S3. cbn.
    change (match steps (tr st) with [] => t0 | a :: _ => a_t a end) with (now (tr st)). rewrite <- L4. auto. }
  split.
  { rewrite A1. unfold fails. destruct r as [v|[[]| |]]; try exact He. cbn [app]. apply every_cons; [exact I|exact He]. }
  split; [exact Hn|]. split; [exact Hf|]. intros ts Ets. split; [exact (Hb ts Ets)|].
  assert (Hw : Forall (within ts) (evs ++ CTry (tn (nlp st)) (hh st) (kk st) :: tr st)).
  { apply Forall_app. split; [|constructor; [exact I|apply (R5 ts Ets)]].
    eapply Forall_impl; [|exact A2]. intros e He1. destruct e; cbn in He1 |- *; try contradiction; auto.
    destruct He1 as (-> & _). exact (Hb ts Ets). }
  rewrite A1. apply Forall_app. split; [|exact Hw]. unfold fails. destruct r as [v|[[]| |]]; repeat constructor.
Qed.

Lemma D_retry : i_retry prob D.
Proof.
  intros st t1 nef st1 ck ek ek1 st' Hi (L & R) Et Htr Hat Hn Hrt.
  split; [exact (tlink_retry prob ewt_set c st t1 nef st1 ck ek ek1 st' Hi L Et Htr Hat Hn Hrt)|].
  destruct (dl_try _ _ _ _ _ _ Hi (conj L R) Htr Hat) as (evs & A1 & Ac & A3 & _ & _ & A6).
  destruct (calm_app evs (CTry (tn (nlp st)) (hh st) (kk st) :: tr st) Ac) as (S1 & S2 & S3 & S4).
  pose proof (tl_in _ _ _ _ L) as (L10 & _ & _ & _).
  destruct R as [R1 R2 R0 R3 R4 R5].
  assert (Ho : Some (t1, nef) <> None) by congruence.
  destruct (R3 (or_intror Ho)) as (B1 & B2).
  pose proof (rt_nlp _ _ _ _ _ Hrt) as U1. pose proof (rt_keep _ _ _ _ _ Hrt) as U3.
  pose proof (tr_cnt _ _ _ _ _ Htr) as U4. pose proof (tr_h _ _ _ _ _ Htr) as U6.
  pose proof (rt_hh _ _ _ _ _ Hrt) as U8.
  destruct (factor_rnd u rnd Hg (hh st) (nef + 1) (rr st')) as (q & Hq & Eq); [lia| |].
  { split; intros Hf.
    - apply (rt_rr0 _ _ _ _ _ Hrt). lia.
    - apply (rt_rr1 _ _ _ _ _ Hrt). lia. }
  assert (Hout : outer st' = outer st) by (rewrite (rt_outer _ _ _ _ _ Hrt); apply Htr).
  apply outer_fields in Hout. destruct Hout as (_ & Hts' & Hu & _).
  pinj. assert (Ht : tr st' = CFail :: evs ++ CTry (tn (nlp st)) (hh st) (kk st) :: tr st).
  { rewrite U1. cbn [lp set_tn trace]. exact A1. }
  assert (Hs : steps (tr st') = steps (tr st)) by (rewrite Ht; cbn; exact S3).
  assert (Eh : hh st' = q * hh st) by (rewrite <- Eq; cbn [smul SRn ScalarRnd] in U8; congruence).
  destruct (shrink_rnd u rnd Hg (hh st) q hi B1 Hq B2) as (C1 & C2 & C3).
  assert (Etn : tn (nlp st') = tn (nlp st)) by (rewrite U1; cbn; exact L10).
  constructor; rewrite ?Hs, ?Eh, ?Etn, ?Hts', ?Hu.
  - rewrite U1. exact A3.
  - exact R2.
  - exact R0.
  - auto.
  - eapply Forall_impl; [|exact R4]. intros a Ha. cbn in Ha |- *. replace (q * hh st * a_h a) with (q * (hh st * a_h a)) by ring. nra.
  - intros ts E. destruct (R5 ts E) as (V1 & _ & V3 & V4). specialize (V3 (or_intror Ho)). specialize (V4 Ho).
    split; [exact V1|]. split; [rewrite U1; apply (A6 ts E)|]. split.
    + intros _. replace ((ts - t0) * (q * hh st)) with (q * ((ts - t0) * hh st)) by ring. nra.
    + intros _. exact (shorter_rnd u rnd Hg _ _ _ _ B1 Hq V4).
Qed.

Lemma D_commit : i_commit prob D.
Proof.
  intros st t1 nef st1 ck ek ek1 st2 Hi (L & R) Et Htr Hat Hcp.
  split; [exact (tlink_commit prob ewt_set c st t1 nef st1 ck ek ek1 st2 Hi L Et Htr Hat Hcp)|].
  destruct (dl_try _ _ _ _ _ _ Hi (conj L R) Htr Hat) as (evs & A1 & Ac & A3 & A5 & A5' & A6).
  destruct (calm_app evs (CTry (tn (nlp st)) (hh st) (kk st) :: tr st) Ac) as (S1 & S2 & S3 & S4).
  pose proof (tl_in _ _ _ _ L) as (L10 & _ & _ & _). pose proof (tl_tn _ _ _ _ L) as L4.
  pose proof (tl_cfg _ _ _ _ L) as Lc.
  destruct R as [R1 R2 R0 R3 R4 R5].
  assert (Ho : Some (t1, nef) <> None) by congruence.
  destruct (R3 (or_intror Ho)) as (B1 & B2).
  pose proof (cp_used _ _ _ Hcp) as U1. pose proof (cp_nlp _ _ _ Hcp) as U2.
  pose proof (tr_h _ _ _ _ _ Htr) as U6. pose proof (tr_tn _ _ _ _ _ Htr) as U7.
  pose proof (cp_hh _ _ _ Hcp) as U8.
  assert (Hcf : cfg st1 = cfg st) by apply Htr. apply cfg_fields in Hcf.
  assert (Hmi : hmax_inv st1 = hi).
  { destruct Lc as (_ & _ & _ & Q & _). rewrite <- Q. tauto. }
  assert (Hout : outer st2 = outer st) by (rewrite (cp_outer _ _ _ Hcp); apply Htr).
  apply outer_fields in Hout. destruct Hout as (_ & Hts' & Hu & _). pinj.
  set (y := yy (nlp st2)) in *.
  assert (Ht : tr (st_commit prob ck st2) = CStep (tn_next st) y :: tr st1).
  { unfold st_commit. cbn [nlp lp trace set_ee on_lp on_nlp set_nlp set_lp push_ev set_trace].
    rewrite U2, U7. unfold y. rewrite U2. reflexivity. }
  cbn [fails app] in A1.
  assert (Hs : steps (tr (st_commit prob ck st2)) = mkastep (tn_next st) y (hh st) (kk st) :: steps (tr st)).
  { rewrite Ht, A1. cbn. rewrite S1, S3. reflexivity. }
  assert (Etn : tn (nlp (st_commit prob ck st2)) = tn_next st) by (cbn; rewrite U2; exact U7).
  change (tstop st2) with (tstop (st_commit prob ck st2)) in Hts'.
  change (h0u st2) with (h0u (st_commit prob ck st2)) in Hu.
  assert (Hh1 : hh st1 = hh st) by assumption.
  rewrite Hmi, Hh1 in U8.
  change (hh st2) with (hh (st_commit prob ck st2)) in U8.
  destruct (next_h_rnd u rnd Hg _ _ _ B1 B2 U8) as (C1 & C2 & C3).
  remember (hh (st_commit prob ck st2)) as h eqn:Ehh.
  assert (Hsg : forall x, 0 < hh st * x -> 0 < h * x).
  { intros x Hx. destruct (same_sign_cases _ _ C3) as [(?&?)|(?&?)], (same_sign_cases _ _ Hx) as [(?&?)|(?&?)]; try lra; nra. }
  constructor; rewrite ?Hs, ?Etn, ?Hts', ?Hu, <- ?Ehh.
  - rewrite Ht. apply every_cons; [|exact A3].
    exists (hh st), (kk st). rewrite A1. unfold IdaTrace.now. rewrite S1, S3. cbn.
    change (match steps (tr st) with [] => t0 | a :: _ => a_t a end) with (now (tr st)). rewrite <- L4. auto.
  - rewrite A5. apply (rg_idem _ _ Hg).
  - exact R0.
  - auto.
  - constructor; [cbn; lra|]. eapply Forall_impl; [|exact R4]. intros a Ha. cbn in Ha |- *. auto.
  - intros ts E. destruct (A6 ts E) as (W1 & W2). destruct (R5 ts E) as (_ & _ & V3 & _). specialize (V3 (or_intror Ho)).
    split; [exact W1|]. split; [rewrite Ht; constructor; [exact W1|exact W2]|]. split; [|congruence].
    intros _. rewrite Rmult_comm. apply Hsg. lra.
Qed.

Lemma D_giveup : i_giveup prob D.
Proof.
  intros st t1 nef st1 ck ek ek1 st' e Hi (L & R) Et Htr Hat Hgu He.
  split; [exact (tlink_giveup prob ewt_set c st t1 nef st1 ck ek ek1 st' e Hi L Et Htr Hat Hgu He)|].
  destruct (dl_try _ _ _ _ _ _ Hi (conj L R) Htr Hat) as (evs & A1 & Ac & A3 & _ & _ & A6).
  destruct (calm_app evs (CTry (tn (nlp st)) (hh st) (kk st) :: tr st) Ac) as (S1 & S2 & S3 & S4).
  pose proof (tl_in _ _ _ _ L) as (L10 & _ & _ & _).
  destruct R as [R1 R2 R0 R3 R4 R5].
  assert (Ho : Some (t1, nef) <> None) by congruence.
  destruct (R3 (or_intror Ho)) as (B1 & B2).
  pose proof (gu_keep _ _ _ _ Hgu) as U1. pose proof (gu_nlp _ _ _ _ Hgu) as U2.
  pose proof (tr_h _ _ _ _ _ Htr) as U6.
  assert (Hout : outer st' = outer st) by (rewrite (gu_outer _ _ _ _ Hgu); apply Htr).
  apply outer_fields in Hout. destruct Hout as (_ & Hts' & Hu & _). pinj.
  assert (Ht : tr st' = fails (Err e) ++ evs ++ CTry (tn (nlp st)) (hh st) (kk st) :: tr st).
  { rewrite U2. cbn [lp set_tn trace]. exact A1. }
  assert (Hs : steps (tr st') = steps (tr st)).
  { rewrite Ht. destruct He as [(-> & _)|((m & ->) & _)]; cbn; auto. }
  assert (Etn : tn (nlp st') = tn (nlp st)) by (rewrite U2; cbn; exact L10).
  assert (Eh : hh st' = hh st) by congruence.
  constructor; rewrite ?Hs, ?Etn, ?Hts', ?Hu, ?Eh.
  - rewrite U2. exact A3.
  - exact R2.
  - exact R0.
  - auto.
  - exact R4.
  - intros ts E. destruct (R5 ts E) as (V1 & _ & V3 & _). split; [exact V1|]. split; [rewrite U2; apply (A6 ts E)|].
    split; [auto|congruence].
Qed.

Lemma reach_D yy0 yp0 (st : state) : reach prob ewt_set c yy0 yp0 st -> D None st.
Proof.
  apply (reach_life prob ewt_set Hl D c yy0 yp0 st Hc);
    [apply D_new|apply D_shell|apply D_lims|apply D_first|].
  split; [exact D_begin|]. split; [exact D_retry|]. split; [exact D_commit|exact D_giveup].
Qed.
End StepRnd.
