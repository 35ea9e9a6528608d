(** * IdaAccept: what an accepted step commits *)
Require Import List Arith Bool Lia Reals Lra.
Import ListNotations.
Require Import Verif.Base Verif.Scalar Verif.ScalarR Verif.Norms Verif.Newton Verif.NewtonSpec Verif.IdaState
  Verif.IdaNls Verif.IdaCore Verif.IdaRoots Verif.IdaSolve Verif.BaseFacts Verif.NewtonFacts
  Verif.IdaFacts Verif.IdaLoops Verif.IdaStep Verif.IdaSpec Verif.IdaShell Verif.IdaReach Verif.IdaInv
  Verif.VecR.
Open Scope nat_scope.

Section Accept.
Context {T LSt NSt : Type} `{Scalar T} `{LSolver T LSt} `{NLSolver T NSt}.
Variable prob : problem T.
Hypothesis Hl : @nls_lawful T NSt _.
Notation n := (model_size prob).
Notation state := (ida T LSt NSt).

Lemma nonlinear_ok (st st' : state) u :
  nonlinear_solve prob st = Ret (st', Ok u) ->
  exists nl x d call nl' x',
    nlpkeep x = nlpkeep (nlp st) /\
    nls_solve _ (ida_nlproblem prob) n nl x d (ee st) (ewt (nlp st)) (eps_newt st) call
      = Ret (nl', x', ee st', Ok tt).
Proof.
  unfold nonlinear_solve.
  destruct (nls_prepare_calls (LSt := LSt) (NSt := NSt) prob st) as (x & b & Ep & Ek & _). rewrite Ep.
  intros E. cbv zeta in E.
  apply bind_ret_inv in E as (((s & d) & r) & E1 & E).
  destruct r as [u1|m]; [|discriminate].
  apply bind_ret_inv in E as ((((s1 & x1) & ev) & r1) & E2 & E).
  destruct r1 as [u2|m]; [|discriminate].
  destruct u2. cbn in E2, E.
  exists s, x, d, b, s1, x1. split; [exact Ek|].
  assert (Ew : ewt x = ewt (nlp st)).
  { apply keep_fields in Ek. tauto. }
  destruct (constraints_set st); [discriminate|]. apply ret_inj in E. injection E as <- _.
  cbn. rewrite <- Ew. exact E2.
Qed.

Lemma test_error_ee (st st' : state) ck ek ek1 r :
  test_error prob st ck = Ret (st', ek, ek1, r) -> ee st' = ee st.
Proof. unfold test_error. intros E. cbv zeta in E. minv; reflexivity. Qed.

Lemma try_ok (st st' : state) ck ek ek1 :
  arrays st -> kk st <= 5 ->
  try_step prob st = Ret (st', ck, ek, ek1, Ok tt) ->
  exists nl x d e0 call nl' x',
    nls_solve _ (ida_nlproblem prob) n nl x d e0 (ewt (nlp st)) (eps_newt st) call
      = Ret (nl', x', ee st', Ok tt) /\
    tn x = tn (nlp st') /\ cj (lp x) = cj (lp (nlp st')) /\
    yypredict x = yypredict (nlp st') /\ yppredict x = yppredict (nlp st').
Proof.
  intros HA HK E. unfold try_step in E.
  set (s0 := on_lp (push_ev (CTry (tn (nlp st)) (hh st) (kk st))) st) in E.
  apply bind_ret_inv in E as ((s1 & c1) & E1 & E).
  apply bind_ret_inv in E as (s2 & E2 & E).
  apply bind_ret_inv in E as ((s3 & r3) & E3 & E).
  destruct r3 as [u|e]; [|discriminate].
  apply bind_ret_inv in E as ((((s4 & ek') & ek1') & r4) & E4 & E).
  assert (s4 = st') by congruence. subst s4.
  destruct (nonlinear_ok _ _ _ E3) as (nl & x & d & call & nl' & x' & K & En).
  pose proof (test_error_ee _ _ _ _ _ _ E4) as Ee.
  destruct (test_error_calls _ _ _ _ _ _ _ E4) as (l & El & El').
  pose proof (nonlinear_solve_frame _ Hl _ _ _ E3) as F.
  destruct F as (_ & _ & _ & _ & _ & _ & _ & _ & _ & F & _).
  assert (K' : nlpkeep x = nlpkeep (nlp st')).
  { rewrite El, K, <- F, El'. reflexivity. }
  assert (Ew : ewt (nlp s2) = ewt (nlp st) /\ eps_newt s2 = eps_newt st).
  { pose proof (set_coeffs_calls _ _ _ _ E1) as N1.
    destruct (set_coeffs_frame _ _ _ _ E1) as (_ & O1 & _).
    destruct (predict_frame _ _ _ E2) as (_ & O2 & _ & _ & _ & _ & N2).
    split.
    - rewrite N2. cbn. rewrite advance_tn_eq. cbn. rewrite N1. reflexivity.
    - rewrite advance_tn_eq in O2. apply outer_fields in O1, O2.
      transitivity (eps_newt s1); [apply O2|]. transitivity (eps_newt s0); [apply O1|reflexivity]. }
  destruct Ew as (W1 & W2). rewrite W1, W2 in En. rewrite Ee.
  apply keep_fields in K'. exists nl, x, d, (ee s2), call, nl', x'. intuition.
Qed.

Lemma tries_ewt t0 (st0 sta : state) nef : tries prob t0 st0 sta nef -> ewt (nlp sta) = ewt (nlp st0).
Proof.
  induction 1 as [|st nef st1 ck ek ek1 st' Tr IH Et Td Hn Rt]; [reflexivity|].
  rewrite (rt_nlp _ _ _ _ _ Rt). cbn. rewrite <- IH.
  pose proof (tr_ewt _ _ _ _ _ Td) as W. injection W as W1 W2. exact W1.
Qed.

(** The leading error coefficient, spelled out. *)
Definition ck_spec (k : nat) (al : list T) : T :=
  smax (sabs (vget al k + asum k - a0sum al k)%sc) (vget al k).

Lemma accepted fuel (st st' : state) u :
  ordok st -> step prob fuel st = Ret (st', Ok u) ->
  exists nl x d e0 call nl' x' e,
    nls_solve _ (ida_nlproblem prob) n nl x d e0 (ewt (nlp st)) (eps_newt st) call
      = Ret (nl', x', e, Ok tt) /\
    tn x = tn (nlp st') /\ cj (lp x) = (- asum (kused st') / hused st')%sc /\
    yy (nlp st') = vadd n (yypredict x) e /\
    yp (nlp st') = vscaled_add n (yppredict x) (cj (lp x)) e /\
    (ck_spec (kused st') (alpha st') * wrms_norm (idv st) e (ewt (nlp st)) (suppressalg st) <=? sone)%sc = true /\
    ee st' = vscale n (ck_spec (kused st') (alpha st')) e /\
    (exists past, trace (lp (nlp st')) = CStep (tn (nlp st')) (yy (nlp st')) :: past) /\
    exists ph, row (phi st') 0 = tailsum prob e ph 0 (kused st' + 1) /\
      yypredict x = rowsum prob ph (kused st' + 1).
Proof.
  intros HO E. destruct (step_spec _ Hl _ _ _ _ HO E) as (sta & nef & st1 & ck & ek & ek1 & r1 & Tr & Et & Td & Cs).
  destruct Cs as [(-> & _ & st2 & Cp & ->)|(e & _ & _ & [C|C])]; [|destruct C as (_ & _ & _ & D & _); discriminate|destruct C as (_ & D & _); discriminate].
  destruct (tries_start prob st sta nef HO Tr) as (A1 & A2 & A3 & A4 & _).
  pose proof (init_kk st HO) as Ik. assert (Hk5 : kk sta <= 5). { destruct HO as (_ & ? & _). lia. }
  destruct (try_ok _ _ _ _ _ A1 Hk5 Et) as (nl & x & d & e0 & call & nl' & x' & En & X1 & X2 & X3 & X4).
  pose proof (tr_res _ _ _ _ _ Td) as (R1 & R2 & R3 & R4 & R5).
  pose proof (tr_ewt _ _ _ _ _ Td) as W. injection W as W1 W2.
  pose proof (tr_ord _ _ _ _ _ Td) as O. injection O as O1 O2 O3.
  pose proof (tr_h _ _ _ _ _ Td) as Hh. injection Hh as Hh1 Hh2 Hh3.
  pose proof (cp_used _ _ _ Cp) as U. injection U as U1 U2 U3.
  pose proof (cp_keep _ _ _ Cp) as Kp. injection Kp as Q1 Q2 Q3 Q4 Q5 Q6 Q7 Q8.
  pose proof (cp_coef _ _ _ Cp) as Co. injection Co as Co1 Co2 Co3 Co4 Co5.
  pose proof (cp_nlp _ _ _ Cp) as Np.
  assert (Tw : ewt (nlp sta) = ewt (nlp st)).
  { rewrite (tries_ewt _ _ _ _ Tr). destruct (init_fields (LSt := LSt) st) as (_ & _ & _ & _ & _ & _ & _ & _ & _ & _ & _ & _ & _ & _ & _ & _ & _ & _ & _ & W & _). exact W. }
  assert (Te : eps_newt sta = eps_newt st) by (apply outer_fields in A4; tauto).
  pose proof (tr_cfg _ _ _ _ _ Td) as Cf1. pose proof (cfg_fields _ _ Cf1) as G1.
  pose proof (cfg_fields _ _ A3) as G2.
  destruct G1 as (_ & G1a & G1b & _). destruct G2 as (_ & G2a & G2b & _).
  pose proof (tr_ck _ _ _ _ _ Td) as Ck.
  rewrite Tw, Te in En.
  exists nl, x, d, e0, call, nl', x', (ee st1).
  assert (Ecj : cj (lp x) = (- asum (kused (st_commit prob ck st2)) / hused (st_commit prob ck st2))%sc).
  { rewrite X2, (tr_cj _ _ _ _ _ Td). unfold cj_of. cbn. congruence. }
  assert (Eck : ck_spec (kused (st_commit prob ck st2)) (alpha (st_commit prob ck st2)) = ck).
  { cbn. rewrite U1, Co2, O1. rewrite Ck. reflexivity. }
  rewrite Eck.
  repeat (split; [first [exact En | exact Ecj | idtac]|]).
  - cbn. rewrite Np. exact X1.
  - cbn. rewrite Np, X3. exact R1.
  - cbn. rewrite Np, X4, X2. exact R2.
  - rewrite <- R5. congruence.
  - cbn. congruence.
  - eexists. reflexivity.
  - exists (phi st1). change (phi (st_commit prob ck st2)) with (phi st2).
    change (kused (st_commit prob ck st2)) with (kused st2). rewrite U1. split.
    + rewrite (cp_row _ _ _ Cp 0) by lia. f_equal; lia.
    + rewrite X3, (tr_yyp _ _ _ _ _ Td), O1. reflexivity.
Qed.
End Accept.


(** Over the reals the vector stored in the history is the corrected solution. *)
Lemma accepted_row0 {LSt NSt} `{LSolver R LSt} `{NLSolver R NSt} (prob : problem R)
    (Hl : @nls_lawful R NSt _) fuel (st st' : ida R LSt NSt) u :
  ordok st -> step prob fuel st = Ret (st', Ok u) -> row (phi st') 0 = yy (nlp st').
Proof.
  intros HO E. destruct (accepted prob Hl _ _ _ _ HO E)
    as (nl & x & d & e0 & call & nl' & x' & e & _ & _ & _ & Ey & _ & _ & _ & _ & ph & Er & Ep).
  rewrite Er, Ey, Ep. apply tailsum_rowsum.
Qed.
