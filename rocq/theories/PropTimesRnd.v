(** * PropTimesRnd: C83, times and step sizes in arithmetic with rounding
      (src/impl_solve.rs, src/impl_stop_test.rs, src/impl_complete_step.rs, src/lib.rs) *)
Require Import List Arith Bool Lia Reals Lra Psatz.
Import ListNotations.
From Flocq Require Import Core.
Require Import Verif.Base Verif.Scalar Verif.ScalarR Verif.RoundR Verif.Norms Verif.Newton Verif.NewtonSpec Verif.IdaState
  Verif.IdaNls Verif.IdaCore Verif.IdaRoots Verif.IdaSolve Verif.IdaIo Verif.BaseFacts Verif.NewtonFacts
  Verif.IdaFacts Verif.IdaLoops Verif.IdaStep Verif.IdaSpec Verif.IdaShell Verif.IdaReach Verif.IdaInv
  Verif.IdaCount Verif.IdaLife Verif.IdaTrace Verif.IdaStepR Verif.IdaStepRnd Verif.Script Verif.ExampleR Verif.PropStepR.
Open Scope R_scope.

(** The rounding of the floating point operations: relative error at most [u],
    at most that of f64; larger numbers are not rounded to smaller ones; what has
    been rounded stays. *)
Definition f64_like (u : R) (rnd : R -> R) : Prop :=
  0 <= u <= / 9007199254740992 /\ (forall x, Rabs (rnd x - x) <= u * Rabs x) /\
  (forall x y, x <= y -> rnd x <= rnd y) /\ (forall x, rnd (rnd x) = rnd x).

Lemma f64_like_regular u rnd : f64_like u rnd -> regular u rnd.
Proof. intros (A & B & C & E). constructor; [split; [lra|exact B]|lra|exact C|exact E]. Qed.

(** The attempts of a life: never of size zero, never longer than the maximal step
    by more than two roundings, all in the direction of the steps already made. *)
Definition try_ok (u : R) (c : @config R) (e : event R) (past : list (event R)) : Prop :=
  match e with
  | CTry t h k => h <> 0 /\ Rabs h * g_hmax_inv c <= / (1 - u) ^ 2 /\ Forall (fun a => 0 < h * a_h a) (steps past)
  | _ => True
  end.

Theorem C83_step_sizes : forall u rnd, f64_like u rnd -> let SR := ScalarRnd rnd in
  forall (LSt NSt : Type) (LS : LSolver R LSt) (NS : NLSolver R NSt) (prob : problem R) ewt_set c yy0 yp0
    (st : ida R LSt NSt),
  nls_lawful -> config_ok c -> rnd (g_t0 c) = g_t0 c -> (forall ts, g_tstop c = Some ts -> rnd ts = ts) ->
  reach prob ewt_set c yy0 yp0 st ->
  every (try_ok u c) (trace (lp (nlp st))) /\
  (steps (trace (lp (nlp st))) <> [] -> get_current_setp st <> 0 /\ Rabs (get_current_setp st) * g_hmax_inv c <= / (1 - u) ^ 2).
Proof.
  intros u rnd Hf SR LSt NSt LS NS prob ewt_set c yy0 yp0 st Hl Hc H0 H1 Hr. apply f64_like_regular in Hf.
  destruct (u_range u rnd (rg_err _ _ Hf)) as (U0 & U1).
  destruct (reach_D u rnd Hf prob ewt_set Hl c Hc H0 H1 yy0 yp0 st Hr) as (L & R).
  assert (Es : slack u = / (1 - u) ^ 2) by (unfold slack; field; lra). rewrite <- Es. split.
  - eapply every_impl; [|exact (dl_every _ _ _ _ _ R)]. intros e past He. destruct e; try exact I.
    unfold try_ok. rewrite <- Es. exact He.
  - intros Hs. unfold get_current_setp. apply (dl_h _ _ _ _ _ R). left. rewrite <- (tl_n _ _ _ _ L).
    intros Q. apply Hs. apply length_zero_iff_nil. exact Q.
Qed.
Print Assumptions C83_step_sizes.

Lemma steps_at (trc : list (event R)) l1 a l2 : steps trc = l1 ++ a :: l2 ->
  exists new past t, trc = new ++ CStep (a_t a) (a_y a) :: past /\ last_try past = Some (t, a_h a, a_k a) /\ steps past = l2.
Proof.
  revert l1. induction trc as [|e trc IH]; intros l1 E; [destruct l1; discriminate|].
  assert (G : steps trc = l1 ++ a :: l2 -> exists new past t,
    e :: trc = new ++ CStep (a_t a) (a_y a) :: past /\ last_try past = Some (t, a_h a, a_k a) /\ steps past = l2).
  { intros Q. destruct (IH l1 Q) as (new & past & t & -> & B). exists (e :: new), past, t. auto. }
  destruct e; cbn in E; auto. destruct (last_try trc) as [[[t' h] k]|] eqn:El; [|auto].
  destruct l1 as [|b l1]; injection E as <- E.
  - exists [], trc, t'. cbn. auto.
  - destruct (IH l1 E) as (new & past & t2 & -> & B). exists (CStep t y :: new), past, t2. auto.
Qed.

(** The time after an accepted step is the rounded sum of the previous time and
    the step size; it never lies behind the previous time. *)
Theorem C83_times : forall u rnd, f64_like u rnd -> let SR := ScalarRnd rnd in
  forall (LSt NSt : Type) (LS : LSolver R LSt) (NS : NLSolver R NSt) (prob : problem R) ewt_set c yy0 yp0
    (st : ida R LSt NSt),
  nls_lawful -> config_ok c -> rnd (g_t0 c) = g_t0 c -> (forall ts, g_tstop c = Some ts -> rnd ts = ts) ->
  reach prob ewt_set c yy0 yp0 st ->
  forall later a rest, steps (trace (lp (nlp st))) = later ++ a :: rest ->
  let before := match rest with b :: _ => a_t b | [] => g_t0 c end in
  a_t a = rnd (before + a_h a) /\ 0 <= (a_t a - before) * a_h a /\
  Forall (fun b => 0 < a_h a * a_h b) rest /\
  get_current_time st = match later with b :: _ => a_t b | [] => a_t a end.
Proof.
  intros u rnd Hf SR LSt NSt LS NS prob ewt_set c yy0 yp0 st Hl Hc H0 H1 Hr later a rest Es. apply f64_like_regular in Hf.
  destruct (reach_D u rnd Hf prob ewt_set Hl c Hc H0 H1 yy0 yp0 st Hr) as (L & R).
  destruct (steps_at _ _ _ _ Es) as (new & past & t & Et & El & Ep).
  pose proof (dl_every _ _ _ _ _ R _ _ _ Et) as (h & k & Q1 & Q2 & Q3). rewrite El in Q1. injection Q1 as _ <- _.
  unfold now in Q2, Q3. rewrite Ep in Q2, Q3. cbv zeta. split; [exact Q2|]. split; [exact Q3|]. split.
  - pose proof (dl_sign _ _ _ _ _ R) as S. rewrite Es in S. apply Forall_app in S. destruct S as (_ & S).
    inversion S as [|? ? S1 S2]; subst. eapply Forall_impl; [|exact S2]. intros b Hb. cbn in Hb.
    destruct (same_sign_cases _ _ S1) as [(?&?)|(?&?)], (same_sign_cases _ _ Hb) as [(?&?)|(?&?)]; try lra; nra.
  - unfold get_current_time. rewrite (tl_tn _ _ _ _ L). unfold now. rewrite Es. destruct later; reflexivity.
Qed.
Print Assumptions C83_times.

(** While a stop time is set the residual function has only been called, and
    steps have only ended, between the initial time and the stop time. *)
Theorem C83_never_past_tstop : forall u rnd, f64_like u rnd -> let SR := ScalarRnd rnd in
  forall (LSt NSt : Type) (LS : LSolver R LSt) (NS : NLSolver R NSt) (prob : problem R) ewt_set c yy0 yp0
    (st : ida R LSt NSt) ts,
  nls_lawful -> config_ok c -> rnd (g_t0 c) = g_t0 c -> rnd ts = ts ->
  reach prob ewt_set c yy0 yp0 st -> tstop st = Some ts ->
  g_tstop c = Some ts /\
  forall e t, In e (trace (lp (nlp st))) -> (exists y yp, e = CRes t y yp) \/ (exists y, e = CStep t y) ->
    Rmin (g_t0 c) ts <= t <= Rmax (g_t0 c) ts.
Proof.
  intros u rnd Hf SR LSt NSt LS NS prob ewt_set c yy0 yp0 st ts Hl Hc H0 H1 Hr Ets. apply f64_like_regular in Hf.
  pose proof (reach_tlink prob ewt_set Hl c Hc yy0 yp0 st Hr) as L0.
  assert (Hg : g_tstop c = Some ts) by (destruct (tl_tstop _ _ _ _ L0); congruence).
  assert (H1' : forall ts, g_tstop c = Some ts -> rnd ts = ts) by (intros x Q; rewrite Hg in Q; injection Q as <-; exact H1).
  destruct (reach_D u rnd Hf prob ewt_set Hl c Hc H0 H1' yy0 yp0 st Hr) as (L & R).
  split; [exact Hg|]. destruct (dl_stop _ _ _ _ _ R ts Ets) as (_ & W & _). intros e t Hin He.
  rewrite Forall_forall in W. specialize (W e Hin).
  assert (B : between c ts t).
  { destruct He as [(y & yp & ->)|(y & ->)]; exact W. }
  exact B.
Qed.
Print Assumptions C83_never_past_tstop.

(** Hypotheses met.  f64 arithmetic (without overflow and underflow) is [f64_like],
    and so is exact arithmetic; a life with a stop time that stays set. *)
Example C83_f64 : f64_like (/ 9007199254740992) rnd53 /\ rnd53 0 = 0 /\ rnd53 1 = 1 /\ rnd53 (/ 3) <> / 3.
Proof.
  destruct rnd53_regular as [(A1 & A2) B C E]. split; [split; [lra|]; auto|].
  split; [unfold rnd53; apply round_0; typeclasses eauto|].
  assert (G : forall x, generic_format radix2 (FLX_exp 53) x -> rnd53 x = x).
  { intros x Hx. unfold rnd53. apply round_generic; [typeclasses eauto|exact Hx]. }
  split; [apply G, generic_format_FLX; exists (Float radix2 1 0); [unfold F2R; cbn; lra|cbn; lia]|].
  intros Q. assert (F : generic_format radix2 (FLX_exp 53) (/ 3)).
  { rewrite <- Q. unfold rnd53. apply generic_format_round; [apply FLX_exp_valid; reflexivity|typeclasses eauto]. }
  apply FLX_format_generic in F; [|reflexivity]. destruct F as [[m e] F1 F2]. cbn in F1, F2.
  unfold F2R in F1. cbn [Fnum Fexp] in F1.
  assert (K : IZR 1 = IZR (3 * m) * bpow radix2 e) by (rewrite mult_IZR; lra).
  destruct (Z_le_gt_dec 0 e) as [He|He].
  - rewrite <- IZR_Zpower, <- mult_IZR in K by exact He. apply eq_IZR in K.
    assert (H3 : (3 * (m * radix2 ^ e) = 1)%Z) by lia. lia.
  - assert (K2 : IZR (radix2 ^ (- e)) = IZR (3 * m)).
    { rewrite IZR_Zpower by lia. apply Rmult_eq_reg_r with (bpow radix2 e); [|apply Rgt_not_eq, bpow_gt_0].
      rewrite <- K, <- bpow_plus. replace (- e + e)%Z with 0%Z by lia. reflexivity. }
    apply eq_IZR in K2. change (radix_val radix2) with 2%Z in K2.
    assert (N : forall k, (0 <= k)%Z -> (2 ^ k mod 3 = 1 \/ 2 ^ k mod 3 = 2)%Z).
    { apply natlike_ind; [left; reflexivity|]. intros k Hk IH. rewrite Z.pow_succ_r by exact Hk.
      rewrite Z.mul_mod by lia. destruct IH as [-> | ->]; cbn; auto. }
    specialize (N (- e)%Z ltac:(lia)). rewrite K2, Z.mul_comm, Z.mod_mul in N by lia. lia.
Qed.

Example C83_hypotheses_met : exists st : ida R (list nat) (script R),
  let rnd := fun x : R => x in let c := configR (Some 1) (/ 4) in
  f64_like 0 rnd /\ config_ok c /\ rnd (g_t0 c) = g_t0 c /\
  @reach R (list nat) (script R) (ScalarRnd rnd) _ NLS0 scalarR ewtR c [0] [1] st /\
  tstop st = Some 1 /\ length (steps (trace (lp (nlp st)))) = 1%nat.
Proof.
  destruct C49_hypotheses_met as (st & A & B & C). exists st. cbv zeta.
  split; [|split; [exact A|split; [reflexivity|split; [exact B|exact C]]]].
  split; [lra|]. split; [intros x; unfold Rminus; rewrite Rplus_opp_r, Rabs_R0; lra|auto].
Qed.
