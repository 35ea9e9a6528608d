(** * IdaCallR: one call of [solve] over the reals *)
Require Import List Arith Bool Lia Reals Lra Psatz.
Import ListNotations.
Require Import Verif.Base Verif.Scalar Verif.ScalarR Verif.Norms Verif.Newton Verif.NewtonSpec Verif.IdaState
  Verif.IdaNls Verif.IdaCore Verif.IdaRoots Verif.IdaSolve Verif.BaseFacts Verif.NewtonFacts
  Verif.IdaFacts Verif.IdaLoops Verif.IdaStep Verif.IdaSpec Verif.IdaShell Verif.IdaReach Verif.IdaInv
  Verif.IdaCount Verif.IdaLife Verif.IdaTrace Verif.IdaStepR Verif.IdaInterp Verif.IdaCall.
Open Scope R_scope.

Section CallR.
Context {LSt NSt : Type} `{LSolver R LSt} `{NLSolver R NSt}.
Variable prob : problem R.
Variable ewt_set : list R -> list R.
Hypothesis Hl : @nls_lawful R NSt _.
Variable c : @config R.
Hypothesis Hc : config_ok c.
Notation n := (model_size prob).
Notation state := (ida R LSt NSt).
Notation tr st := (trace (lp (nlp st))).
Notation J := (J prob c).

Lemma J_in : i_in prob ewt_set J.
Proof.
  split; [apply J_begin|]. split; [exact (J_retry prob ewt_set c)|].
  split; [exact (J_commit prob ewt_set c)|exact (J_giveup prob ewt_set c)].
Qed.

Lemma pieces_J (st s : state) : ordok st -> J None st -> pieces prob ewt_set st s -> ordok s /\ J None s.
Proof.
  intros O TL P. refine (pieces_life prob ewt_set Hl J st s _ _ _ _ P O TL).
  - apply J_shell.
  - apply J_lims.
  - apply J_first.
  - apply J_in.
Qed.

(** ** One accepted step *)
Lemma tries_sign t0 (st0 sta : state) nef : hh st0 <> 0 -> tries prob t0 st0 sta nef -> 0 < hh sta * hh st0.
Proof.
  intros Hh. induction 1 as [|st nef st1 ck ek ek1 st' _ IH _ Htr Hn Hrt]; [exact (sq_pos _ Hh)|].
  pose proof (rt_hh _ _ _ _ _ Hrt) as E. pose proof (tr_h _ _ _ _ _ Htr) as E1. injection E1 as E1 _ _.
  assert (Hq : / 4 <= rr st' <= 9 / 10).
  { apply (factor_R (nef + 1)); [lia|]. split; intros Hf.
    - apply (rt_rr0 _ _ _ _ _ Hrt). lia.
    - apply (rt_rr1 _ _ _ _ _ Hrt). lia. }
  rewrite E, E1. cbn [smul ScalarR].
  replace (hh st * rr st' * hh st0) with (rr st' * (hh st * hh st0)) by ring. nra.
Qed.

Lemma step_time_R fuel (st st' : state) u :
  ordok st -> J None st -> limited st -> fresh prob ewt_set st -> step prob fuel st = Ret (st', Ok u) ->
  tn (nlp st') = tn (nlp st) + hused st' /\ 0 < hused st' * hh st /\ 0 < hh st' * hused st' /\ hh st <> 0.
Proof.
  intros O J0 L F Es.
  assert (J' : J None st').
  { exact (step_life prob ewt_set Hl J fuel st st' (Ok u) J_in O J0 L F Es). }
  pose proof (J_begin prob ewt_set c st O J0 L F) as Ji.
  pose proof (instep_init _ O) as Hi.
  destruct (step_spec prob Hl _ _ _ _ O Es) as (sta & nef & st1 & ck & ek & ek1 & r1 & Ht & E1 & Htr & [(-> & _ & st2 & Hcp & ->)|(e & _ & _ & [(_ & _ & _ & C & _)|(_ & C & _)])]); try discriminate.
  destruct (tries_life prob Hl J _ _ _ _ (J_retry prob ewt_set c) Hi Ji Ht) as (Hia & Ja).
  pose proof (try_step_calls prob Hl _ _ _ _ _ _ (is_arr _ Hia) ltac:(pose proof (is_kk _ Hia); pose proof (is_max _ Hia); lia) E1) as At.
  destruct (rl_try prob ewt_set c sta st1 (tn (nlp st)) nef ck (Ok tt) Hia Ja Htr At) as (evs & _ & _ & _ & Hn).
  destruct Ja as (La & Ra). pose proof (tl_tn _ _ _ _ La) as Hn1.
  pose proof (tl_in _ _ _ _ La) as (Hn2 & _).
  pose proof (cp_used _ _ _ Hcp) as U. pose proof (tr_h _ _ _ _ _ Htr) as U2. pose proof (tr_tn _ _ _ _ _ Htr) as U3.
  pose proof (cp_nlp _ _ _ Hcp) as U4.
  assert (Ehu : hused (st_commit prob ck st2) = hh sta) by (cbn; congruence).
  assert (Etn : tn (nlp (st_commit prob ck st2)) = tn_next sta) by (cbn; rewrite U4; exact U3).
  destruct (init_fields st) as (_ & _ & _ & _ & _ & _ & Hh0 & _).
  assert (Hne : hh st <> 0).
  { rewrite <- Hh0. destruct Ji as (_ & Ri). apply (rl_h _ _ _ Ri). right. discriminate. }
  split; [rewrite Etn, Ehu, Hn, <- Hn1, <- Hn2; reflexivity|].
  split.
  { rewrite Ehu. rewrite <- Hh0 in *. apply (tries_sign _ _ _ _ Hne Ht). }
  split; [|exact Hne].
  destruct J' as (L' & R'). pose proof (tl_used _ _ _ _ L') as Hu. pose proof (rl_sign _ _ _ R') as Hs.
  pose proof (tl_n _ _ _ _ L') as Hn'. set (s' := st_commit prob ck st2) in *.
  assert (Hz : nst s' <> 0%nat) by (unfold s'; change (nst st2 <> 0%nat); injection U as _ _ U5; rewrite U5; lia).
  destruct (steps (tr s')) as [|a rest]; [cbn [length] in Hn'; congruence|].
  destruct (Hu a rest eq_refl) as (_ & ->). inversion Hs; assumption.
Qed.

(** ** The output time at the loop head *)
Lemma steps_ne o (st : state) : J o st -> nst st <> 0%nat -> exists a rest, steps (tr st) = a :: rest.
Proof.
  intros (L & _) Hz. pose proof (tl_n _ _ _ _ L) as E. destruct (steps (tr st)) as [|a rest]; [cbn in E; lia|eauto].
Qed.

Lemma head_tout (st s : state) tout : ordok st -> J None st -> head prob ewt_set tout Normal st s ->
  0 < (tout - tn (nlp s)) * hh s.
Proof.
  intros O Ji Hd. destruct (pieces_J _ _ O Ji (hd_pieces _ _ _ _ _ _ Hd)) as (Os & Js).
  destruct (hd_ahead _ _ _ _ _ _ Hd) as [(Hz & s1 & P1 & Lm & A)|(Hz & a & s1 & P1 & F1 & S1 & Ha)].
  - specialize (A eq_refl). cbn [sleb ScalarR ssub smul szero] in A. apply Rleb_false in A.
    destruct (pieces_J _ _ O Ji P1) as (O1 & J1).
    assert (Hz1 : nst s1 <> 0%nat) by (rewrite <- (lims_nst _ _ Lm); exact Hz).
    destruct (steps_ne _ _ Js Hz) as (b & rest & Es). 
    destruct (lims_fields _ _ Lm) as (h & Eh).
    assert (Etr : tr s = tr s1) by (rewrite Eh; reflexivity).
    assert (Etn : tn (nlp s) = tn (nlp s1)) by (rewrite Eh; reflexivity).
    pose proof (rl_sign _ _ _ (proj2 Js)) as Q1. pose proof (rl_sign _ _ _ (proj2 J1)) as Q2.
    rewrite <- Etr in Q2. rewrite Es in Q1, Q2. apply Forall_inv in Q1; apply Forall_inv in Q2.
    rewrite Etn. 
    destruct (same_sign_cases (hh s) (a_h b)) as [(?&?)|(?&?)], (same_sign_cases (hh s1) (a_h b)) as [(?&?)|(?&?)];
      try assumption; try lra; nra.
  - destruct (first_call_R prob ewt_set a s1 tout F1) as (_ & Q & _).
    pose proof (first_call_frame _ _ _ _ _ F1) as (Fk & _). apply fkeep_fields in Fk.
    assert (Et : tn (nlp s1) = tn (nlp a)) by tauto.
    pose proof (core_fields _ _ (sh_core _ _ _ S1)) as Cf.
    assert (E1 : hh s = hh s1) by tauto. assert (E2 : tn (nlp s) = tn (nlp s1)) by tauto.
    rewrite E1, E2, Et. exact Q.
Qed.

(** An interpolation at a time in the last step, up to roundoff, is accepted. *)
Lemma time_ok (st : state) t : 0 < hh st * hused st -> 
  0 <= (t - (tn (nlp st) - hused st)) * hh st + 100 * eps * (Rabs (tn (nlp st)) + Rabs (hh st)) * Rabs (hh st) ->
  time_check st t = None.
Proof.
  intros Hs Ht. unfold time_check. cbv zeta.
  match goal with |- (if ?b then _ else _) = None => destruct b eqn:E end; [|reflexivity]. exfalso.
  cbn in E. apply Rltb_true in E. change (/ 4503599627370496) with eps in E.
  assert (Hsg : Rsignum (hh st) * hh st = Rabs (hh st)).
  { unfold Rsignum. destruct (Rlt_dec (hh st) 0); unfold Rabs; destruct (Rcase_abs (hh st)); lra. }
  set (F := 100 * eps * (Rabs (tn (nlp st)) + Rabs (hh st))) in *.
  replace ((t - (tn (nlp st) - hused st - F * Rsignum (hh st))) * hh st)
    with ((t - (tn (nlp st) - hused st)) * hh st + F * (Rsignum (hh st) * hh st)) in E by ring.
  rewrite Hsg in E. lra.
Qed.

End CallR.
