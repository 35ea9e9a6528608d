(** * PropTol: the tolerance, weights and error factor of the nonlinear iteration
      in every attempt of a life (C67) *)
Require Import List Arith Bool Lia Floats.
Import ListNotations.
Require Import Verif.Base Verif.Scalar Verif.ScalarF Verif.Norms Verif.Newton Verif.NewtonSpec Verif.IdaState
  Verif.IdaNls Verif.IdaCore Verif.IdaRoots Verif.IdaSolve Verif.IdaIo Verif.BaseFacts Verif.NewtonFacts
  Verif.IdaFacts Verif.IdaLoops Verif.IdaStep Verif.IdaSpec Verif.IdaShell Verif.IdaReach Verif.IdaInv
  Verif.IdaCount Verif.IdaLife Verif.IdaTrace Verif.IdaAccept Verif.PropNls Verif.Witness.
Open Scope nat_scope.

Section Tol.
Context {T LSt : Type} `{Scalar T} `{LSolver T LSt}.
Variable prob : problem T.
Variable ewt_set : list T -> list T.
Variable fuel : nat.
Local Instance newton_tol : NLSolver T (newton T) := NewtonNLS fuel.
Notation n := (model_size prob).
Notation state := (ida T LSt (newton T)).

(** ** Specification *)
(** In [st] a step of some call begins an attempt, after [nef] attempts that
    failed the error test: [s0] is the object before the call, [s] the state
    handed to [Ida::step]. *)
Definition attempt_at (c : @config T) (yy0 yp0 : list T) (st : state) (nef : nat) : Prop :=
  exists s0 s, reach prob ewt_set c yy0 yp0 s0 /\ pieces prob ewt_set s0 s /\ limited s /\ fresh prob ewt_set s /\
    tries prob (tn (nlp s)) (st_init s) st nef.

(** The error factor an attempt begins with: 100 if its leading coefficient [cn]
    differs from that of the attempt before, [cp]; otherwise 20 in the first
    step, and later the [last] one of the attempt before. *)
Definition begin_factor (first : bool) (cp cn last : T) : T :=
  if sneqb cn cp then shundred else if first then stwenty else last.

(** ** One attempt *)
Lemma prepare_fields (st s : state) b : nls_prepare st = (s, b) ->
  ss (nlp s) = begin_factor (nst st =? 0) (cjlast st) (cj (lp (nlp st))) (ss (nlp st)) /\
  oldnrm (nlp s) = oldnrm (nlp st) /\ s = set_nlp (nlp s) st /\ nlpkeep (nlp s) = nlpkeep (nlp st).
Proof.
  unfold nls_prepare, begin_factor. cbv zeta. intros E.
  destruct (nst st =? 0); destruct (sneqb (cj (lp (nlp st))) (cjlast st)) eqn:Es;
  cbn in E; rewrite ?Es in E; injection E as <- _; repeat split.
Qed.

Lemma leading_cjlast (st st' : state) ck : set_coeffs prob st = Ret (st', ck) -> cjlast st' = cj (lp (nlp st)).
Proof.
  unfold set_coeffs. intros E.
  apply bind_ret_inv in E as (s1 & E1 & E). cbv beta in E.
  apply bind_ret_inv in E as ((s2 & c2) & E2 & E). cbv beta iota in E.
  apply bind_ret_inv in E as (s3 & E3 & E). cbv beta in E.
  apply ret_inj in E. apply (f_equal fst) in E. cbn in E. subst st'.
  assert (X1 : nlp s1 = nlp st).
  { unfold compute_coeffs in E1. minv; unfold bump_ns; try reflexivity; destruct (_ || _); reflexivity. }
  assert (X2 : cjlast s2 = cj (lp (nlp s1))) by (unfold leading_coeff in E2; minv; reflexivity).
  assert (X3 : cjlast s3 = cjlast s2) by (unfold scale_phi in E3; minv; reflexivity).
  congruence.
Qed.

Lemma attempt_solve (st st1 : state) ck ek ek1 r :
  try_step prob st = Ret (st1, ck, ek, ek1, r) ->
  exists x x' call r',
    newton_solve (ida_nlproblem prob) n fuel (nls st) x (vzero n) (ee st) (ewt (nlp st)) (eps_newt st) call
      = Ret (nls st1, x', ee st1, r') /\
    ss x = begin_factor (nst st =? 0) (cj (lp (nlp st))) (cj (lp (nlp st1))) (ss (nlp st)) /\
    oldnrm x = oldnrm (nlp st) /\ toldel x = toldel (nlp st) /\
    (ss (nlp st1), oldnrm (nlp st1)) = (ss x', oldnrm x') /\
    (r' = Ok tt <-> r = Ok tt \/ r = Err (EIda TestFail)).
Proof.
  intros E. unfold try_step in E.
  set (s0 := on_lp (push_ev (CTry (tn (nlp st)) (hh st) (kk st))) st) in E. cbv zeta in E.
  apply bind_ret_inv in E as ((s1 & c1) & E1 & E). cbv beta iota in E.
  apply bind_ret_inv in E as (s2 & E2 & E). cbv beta in E.
  apply bind_ret_inv in E as ((s3 & r3) & E3 & E). cbv beta iota in E.
  pose proof (leading_cjlast _ _ _ E1) as L1. change (cj (lp (nlp s0))) with (cj (lp (nlp st))) in L1.
  pose proof (set_coeffs_calls _ _ _ _ E1) as N1.
  destruct (set_coeffs_frame _ _ _ _ E1) as (_ & O1 & _ & _ & _ & _ & H1 & K1 & _).
  destruct (predict_frame _ _ _ E2) as (_ & O2 & _ & _ & _ & S2 & N2).
  rewrite advance_tn_eq in O2, S2, N2.
  assert (F2 : cjlast s2 = cj (lp (nlp st)) /\ nst s2 = nst st /\ ee s2 = ee st /\ nls s2 = nls st /\ eps_newt s2 = eps_newt st /\
    ewt (nlp s2) = ewt (nlp st) /\ toldel (nlp s2) = toldel (nlp st) /\ ss (nlp s2) = ss (nlp st) /\ oldnrm (nlp s2) = oldnrm (nlp st)).
  { apply outer_fields in O1, O2. unfold stepst in S2.
    assert (X : cjlast s2 = cjlast s1 /\ nst s2 = nst s1 /\ ee s2 = ee s1 /\ nls s2 = nls s1).
    { unfold on_nlp in S2. pinj. auto. }
    destruct X as (X1 & X2 & X3 & X4). injection H1 as _ _ _ He _. injection K1 as Hn _ _ Hs.
    split; [congruence|]. split; [rewrite X2, Hn; reflexivity|]. split; [rewrite X3, He; reflexivity|].
    split; [rewrite X4, Hs; reflexivity|].
    split; [transitivity (eps_newt s1); [apply O2|]; transitivity (eps_newt s0); [apply O1|reflexivity]|].
    rewrite N2. cbn. rewrite N1. repeat split. }
  destruct F2 as (F1 & F2 & F3 & F4 & F5 & F6 & F7 & F8 & F9).
  unfold nonlinear_solve in E3. destruct (nls_prepare s2) as (s2' & call) eqn:Ep.
  destruct (prepare_fields _ _ _ Ep) as (P1 & P2 & P3 & P4). rewrite P3 in E3. set (x := nlp s2') in *. clearbody x. clear P3 Ep s2'.
  cbv zeta in E3. cbn [nls_setup newton_tol NewtonNLS bind] in E3. cbv beta iota in E3.
  apply bind_ret_inv in E3 as ((((nw' & x') & ev) & r') & E3 & E3'). cbv beta iota in E3'.
  cbn [nls_solve newton_tol NewtonNLS] in E3.
  change (newton_solve (ida_nlproblem prob) n fuel (nls s2) x (vzero n) (ee s2) (ewt x) (eps_newt s2) call = Ret (nw', x', ev, r')) in E3.
  assert (Ew : ewt x = ewt (nlp st) /\ toldel x = toldel (nlp st) /\ cj (lp x) = cj (lp (nlp s2))).
  { apply keep_fields in P4. unfold nlpkeep in P4. intuition congruence. }
  destruct Ew as (Ew & Ed & Ej). rewrite F4, F3, Ew, F5 in E3.
  exists x, x', call, r'.
  assert (Hs3 : nls s3 = nw' /\ ee s3 = ev /\ ss (nlp s3) = ss x' /\ oldnrm (nlp s3) = oldnrm x' /\ cj (lp (nlp s3)) = cj (lp x') /\
    (r' = Ok tt <-> r3 = Ok tt) /\ (forall e, r3 = Err e -> exists m, e = ENls m)).
  { destruct r' as [[]|m].
    - destruct (constraints_set _) in E3'; [discriminate|]. apply ret_inj in E3'. injection E3' as <- <-. cbn. intuition discriminate.
    - apply ret_inj in E3'. injection E3' as <- <-. cbn. intuition (try discriminate). exists m. congruence. }
  destruct Hs3 as (Q1 & Q2 & Q3 & Q4 & Q5 & Q6 & Q7).
  assert (Ec : cj (lp x') = cj (lp x)).
  { pose proof (newton_preserves _ _ _ (nlpkeep_preserved prob x) _ _ _ _ _ _ _ _ _ _ _ _ eq_refl E3) as X.
    apply keep_fields in X. tauto. }
  assert (X : nls st1 = nls s3 /\ ee st1 = ee s3 /\ ss (nlp st1) = ss (nlp s3) /\ oldnrm (nlp st1) = oldnrm (nlp s3) /\
     cj (lp (nlp st1)) = cj (lp (nlp s3)) /\ (r3 = Ok tt <-> r = Ok tt \/ r = Err (EIda TestFail))).
  { destruct r3 as [[]|e].
    - apply bind_ret_inv in E as ((((s4 & ek') & ek1') & r4) & E4 & E). cbv beta iota in E.
      apply ret_inj in E. injection E as <- _ _ _ <-.
      destruct (test_error_frame _ _ _ _ _ _ _ E4) as (_ & _ & _ & _ & _ & _ & _ & D1 & D2 & _ & D3).
      injection D1 as _ _ _ _ D1. injection D2 as _ _ _ D2. split; [exact D2|]. split; [exact D1|].
      assert (N : ss (nlp s4) = ss (nlp s3) /\ oldnrm (nlp s4) = oldnrm (nlp s3) /\ cj (lp (nlp s4)) = cj (lp (nlp s3)) /\
        (r4 = Ok tt \/ r4 = Err (EIda TestFail))).
      { destruct r4 as [[]|e]; [destruct D3 as (_ & D3)|destruct D3 as (-> & _ & D3)]; rewrite D3; repeat split; auto. }
      tauto.
    - apply ret_inj in E. injection E as <- _ _ _ <-. repeat split; [discriminate|].
      destruct (Q7 _ eq_refl) as (m & ->). intros [X|X]; discriminate. }
  destruct X as (X1 & X2 & X3 & X4 & X5 & X6).
  split; [rewrite X1, X2, Q1, Q2; exact E3|].
  split; [rewrite P1, F1, F2, F8, X5, Q5, Ec, Ej; reflexivity|].
  split; [rewrite P2, F9; reflexivity|]. split; [exact Ed|]. split; [congruence|]. tauto.
Qed.

(** ** Lives *)
(** Once the first-call block has been passed, the tolerance is the configured
    coefficient and the bound for a first update is 1e-4 times that. *)
Definition tol_is (c : @config T) (st : state) : Prop :=
  eps_newt st = g_epcon c /\ toldel (nlp st) = (spt0001 * g_epcon c)%sc.
Definition TJ (c : @config T) (o : option (T * nat)) (st : state) : Prop :=
  epcon st = g_epcon c /\ (o <> None \/ nst st <> 0 -> tol_is c st).

Lemma tol_outer (c : @config T) (a b : state) : cfg b = cfg a -> outer b = outer a -> toldel (nlp b) = toldel (nlp a) ->
  (epcon b = epcon a) /\ (tol_is c a -> tol_is c b).
Proof.
  intros C O D. apply cfg_fields in C. apply outer_fields in O. split; [apply C|].
  intros (X1 & X2). split; [transitivity (eps_newt a); [apply O|exact X1]|congruence].
Qed.

Lemma shell_tol (c : @config T) (a b : state) : shell prob a b -> epcon b = epcon a /\ nst b = nst a /\ (tol_is c a -> tol_is c b).
Proof.
  intros S. pose proof (sh_core _ _ _ S) as D. pose proof (core_fields _ _ D) as F.
  assert (Ht : toldel (nlp b) = toldel (nlp a)).
  { apply (f_equal (fun x => snd (fst (fst (snd (snd (fst x))))))) in D. exact D. }
  split; [apply (cfg_fields b a); apply F|]. split; [apply F|]. intros (X1 & X2). split; [|congruence].
  transitivity (eps_newt a); [apply F|exact X1].
Qed.

Lemma TJ_attempt c (st st1 : state) t0 nef ck r : TJ c (Some (t0, nef)) st -> tried prob st st1 ck r ->
  epcon st1 = g_epcon c /\ tol_is c st1.
Proof.
  intros (J1 & J2) Td. pose proof (tr_ewt _ _ _ _ _ Td) as W. injection W as _ W.
  destruct (tol_outer c st st1 (tr_cfg _ _ _ _ _ Td) (tr_outer _ _ _ _ _ Td) W) as (X1 & X2).
  split; [congruence|]. apply X2, J2. left. discriminate.
Qed.

Lemma TJ_life c yy0 yp0 : i_new prob (TJ c) c yy0 yp0 /\ i_shell prob (TJ c) /\ i_lims (TJ c) /\ i_first prob ewt_set (TJ c) /\
  i_in prob ewt_set (TJ c).
Proof.
  split; [|split; [|split; [|split; [|split; [|split; [|split]]]]]].
  - intros st E. split; [reflexivity|]. intros [X|X]; [destruct X; reflexivity|]. destruct X.
    transitivity (nst st); [reflexivity|]. unfold ida_new in E. minv. reflexivity.
  - intros a b _ (J1 & J2) S. destruct (shell_tol c a b S) as (X1 & X2 & X3).
    split; [congruence|]. rewrite X2. intros X. apply X3, J2, X.
  - intros a b _ (J1 & J2) Hn L. destruct L as [(_ & ->)|(ts & _ & _ & ->)]; [split; assumption|].
    unfold limit_to_tstop. destruct (_ <? _)%sc; split; assumption.
  - intros a tout x _ (J1 & J2) Hz E. apply first_call_frame in E. cbv zeta in E.
    destruct E as (F1 & _). set (q := match x with inl (s, _) => s | inr s => s end) in *.
    assert (Ef : cfg q = cfg a /\ nst q = nst a) by (unfold fkeep in F1; cbv zeta in F1; split; congruence).
    destruct Ef as (Ef & En). apply cfg_fields in Ef. split; [transitivity (epcon a); [apply Ef|exact J1]|].
    rewrite En. intros [X|X]; [destruct X; reflexivity|contradiction].
  - intros st _ (J1 & J2) _ Fr.
    destruct (init_fields st) as (C & O & _).
    assert (D : toldel (nlp (st_init st)) = toldel (nlp st)) by (unfold st_init; cbv zeta; destruct (_ =? 0); reflexivity).
    destruct (tol_outer c _ _ C O D) as (X1 & X2). split; [congruence|]. intros _. apply X2.
    destruct Fr as [Hn|(a & tout & s & Hz & E & S)]; [apply J2; auto|].
    apply first_call_frame in E. cbv zeta in E. destruct E as (_ & _ & _ & _ & _ & _ & _ & _ & F5 & F6 & _).
    destruct (shell_tol c s st S) as (Y1 & _ & Y3). apply Y3. split; [congruence|]. rewrite F6. congruence.
  - intros st t0 nef st1 ck ek ek1 st' _ J _ Td _ _ R.
    destruct (TJ_attempt c _ _ _ _ _ _ J Td) as (X1 & X2).
    destruct (tol_outer c st1 st' (rt_cfg _ _ _ _ _ R) (rt_outer _ _ _ _ _ R)) as (Y1 & Y2); [rewrite (rt_nlp _ _ _ _ _ R); reflexivity|].
    split; [congruence|auto].
  - intros st t0 nef st1 ck ek ek1 st2 _ J _ Td _ C.
    destruct (TJ_attempt c _ _ _ _ _ _ J Td) as (X1 & X2).
    destruct (tol_outer c st1 st2 (cp_cfg _ _ _ C) (cp_outer _ _ _ C)) as (Y1 & Y2); [rewrite (cp_nlp _ _ _ C); reflexivity|].
    split; [change (epcon st2 = g_epcon c); congruence|]. intros _. destruct (Y2 X2). split; assumption.
  - intros st t0 nef st1 ck ek ek1 st' e _ J _ Td _ G _.
    destruct (TJ_attempt c _ _ _ _ _ _ J Td) as (X1 & X2).
    destruct (tol_outer c st1 st' (gu_cfg _ _ _ _ G) (gu_outer _ _ _ _ G)) as (Y1 & Y2); [rewrite (gu_nlp _ _ _ _ G); reflexivity|].
    split; [congruence|auto].
Qed.

Lemma attempt_tol c yy0 yp0 (st : state) nef : config_ok c -> attempt_at c yy0 yp0 st nef -> tol_is c st.
Proof.
  intros Hc (s0 & s & Hr & Hp & Hlim & Hfr & Ht).
  pose proof (newton_lawful fuel) as Hl.
  destruct (TJ_life c yy0 yp0) as (L1 & L2 & L3 & L4 & L5).
  pose proof (reach_life prob ewt_set Hl (TJ c) c yy0 yp0 s0 Hc L1 L2 L3 L4 L5 Hr) as J0.
  pose proof (reach_ord prob ewt_set Hl c yy0 yp0 s0 Hc Hr) as Ho.
  destruct (pieces_life prob ewt_set Hl (TJ c) s0 s L2 L3 L4 L5 Hp Ho J0) as (Os & Js).
  destruct L5 as (Lb & Lr & _).
  pose proof (Lb s Os Js Hlim Hfr) as Ji.
  destruct (tries_life prob Hl (TJ c) _ _ _ _ Lr (instep_init _ Os) Ji Ht) as (_ & J). apply J. left. discriminate.
Qed.

(** ** C67 *)
(** In every attempt of every life: the correction starts from zero, the norms
    are taken with the weights in force, the tolerance is the configured
    coefficient, a first update within 1e-8 of it is accepted at once, the error
    factor begins as [begin_factor] says and is handed on to the next attempt.
    The attempt ends with the last accepted iterate. *)
Theorem C67_every_attempt c yy0 yp0 (st st1 : state) nef ck ek ek1 r :
  config_ok c -> attempt_at c yy0 yp0 st nef -> try_step prob st = Ret (st1, ck, ek, ek1, r) ->
  let tol := g_epcon c in let w := ewt (nlp st) in
  let tiny := (spt0001 * (spt0001 * tol))%sc in
  let fac := begin_factor (nst st =? 0) (cj (lp (nlp st))) (cj (lp (nlp st1))) (ss (nlp st)) in
  let start := (oldnrm (nlp st), fac) in
  exists x call es,
    log_of (ida_nlproblem prob) n fuel (nls st) x (vzero n) (ee st) w tol call es /\
    (forall pre e post, es = pre ++ e :: post -> verdict_ok (track start pre) tiny e) /\
    track start es = (oldnrm (nlp st1), ss (nlp st1)) /\
    (r = Ok tt \/ r = Err (EIda TestFail) ->
     exists pre m del, es = pre ++ [EvCtest m (ee st1) del tol w (Ok true)] /\
       let '(first, saved) := track start pre in
       let rate := conv_rate first m del w in
       m = 0 /\ ((norm_wrms del w <=? tiny)%sc = true \/ (saved * norm_wrms del w <=? tol)%sc = true) \/
       m <> 0 /\ (sratemax <? rate)%sc = false /\ (rate / (sone - rate) * norm_wrms del w <=? tol)%sc = true).
Proof.
  intros Hc Ha Et tol w tiny fac start.
  destruct (attempt_tol c yy0 yp0 st nef Hc Ha) as (T1 & T2).
  destruct (attempt_solve _ _ _ _ _ _ Et) as (x & x' & call & r' & Es & X1 & X2 & X3 & X4 & X5).
  rewrite T1 in Es. fold tol w in Es.
  destruct (newton_log (ida_nlproblem prob) n _ _ _ _ _ _ _ _ _ _ _ _ Es) as (es & k & Hlog & _).
  exists x, call, es. split; [exact Hlog|].
  assert (Es0 : (oldnrm x, ss x) = start) by (unfold start, fac; congruence).
  assert (Ed : (spt0001 * toldel x)%sc = tiny) by (unfold tiny, tol; congruence).
  assert (Hj : judged x (x', es)).
  { apply newton_solve_run in Es. destruct Es as (es' & k' & E1 & _).
    assert (J0 : judged x (x, [])).
    { split; [reflexivity|]. split; [reflexivity|]. intros pre e post X. destruct pre; discriminate. }
    pose proof (newton_preserves _ _ _ (judged_preserved prob x) _ _ _ _ _ _ _ _ _ _ _ _ J0 E1) as J.
    destruct Hlog as (q1 & q2 & q3 & q4 & X). assert (es' = es) by congruence. subst es'. exact J. }
  destruct Hj as (J1 & _ & J3). cbn [fst snd] in J1, J3. rewrite Es0 in J1, J3. rewrite Ed in J3.
  split; [exact J3|]. split; [rewrite <- J1; congruence|].
  intros Hr. apply X5 in Hr. subst r'.
  destruct (C67_accepted prob _ _ _ _ _ _ _ _ _ _ _ Es) as (pre & m & del & Hlog' & Hv).
  assert (Ees : es = pre ++ [EvCtest m (ee st1) del tol w (Ok true)]).
  { destruct Hlog as (q1 & q2 & q3 & q4 & X). destruct Hlog' as (q1' & q2' & q3' & q4' & X'). congruence. }
  exists pre, m, del. split; [exact Ees|]. rewrite Es0, Ed in Hv. exact Hv.
Qed.
End Tol.

(** ** Hypotheses met *)
(** Attempts of the Roberts life: one whose leading coefficient has changed, and
    one that keeps it and inherits a factor other than 20. *)
Definition at_attempt (same : bool) (st : fstate) : bool :=
  (negb (nst st =? 0)%nat && match tstop st with None => true | _ => false end) &&
  match try_step robertsF (st_init st) with
  | Ret (st1, _, _, _, Ok _) =>
      if same then (cj (lp (nlp st1)) =? cj (lp (nlp (st_init st))))%float && negb (ss (nlp (st_init st)) =? 20)%float
      else negb (cj (lp (nlp st1)) =? cj (lp (nlp (st_init st))))%float
  | _ => false
  end.

Lemma at_attempt_ok same (st : fstate) : roberts_reach st -> at_attempt same st = true ->
  attempt_at robertsF roberts_ewt 20 robertsD [1; 0; 0]%float [-0.04; 0.04; 0]%float (st_init st) 0 /\
  exists st1 ck ek ek1, try_step robertsF (st_init st) = Ret (st1, ck, ek, ek1, Ok tt) /\
    (cj (lp (nlp st1)) =? cj (lp (nlp (st_init st))))%float = same /\
    (same = true -> (ss (nlp (st_init st)) =? 20)%float = false).
Proof.
  intros Hr Ha. unfold at_attempt in Ha. apply andb_true_iff in Ha as (A1 & A3). apply andb_true_iff in A1 as (A1 & A2).
  destruct (tstop st) eqn:Ets; [discriminate|]. apply negb_true_iff, Nat.eqb_neq in A1.
  split.
  - exists st, st. split; [exact Hr|]. split; [constructor|]. split; [intros ts X; congruence|].
    split; [left; exact A1|constructor].
  - destruct (try_step robertsF (st_init st)) as [((((st1 & ck) & ek) & ek1) & [[]|e])| |]; try discriminate.
    exists st1, ck, ek, ek1. split; [reflexivity|]. destruct same.
    + apply andb_true_iff in A3 as (A3 & A4). apply negb_true_iff in A4. auto.
    + apply negb_true_iff in A3. split; [exact A3|discriminate].
Qed.

Definition some_calls (m : nat) : list (@call float) := repeat (CallSolve 0.4 0 OneStep)%float m.

Example C67_attempt_met : config_ok robertsD /\ forall same, exists st : fstate,
  attempt_at robertsF roberts_ewt 20 robertsD [1; 0; 0]%float [-0.04; 0.04; 0]%float (st_init st) 0 /\
  exists st1 ck ek ek1, try_step robertsF (st_init st) = Ret (st1, ck, ek, ek1, Ok tt) /\
    (cj (lp (nlp st1)) =? cj (lp (nlp (st_init st))))%float = same /\
    (same = true -> (ss (nlp (st_init st)) =? 20)%float = false).
Proof.
  split; [unfold config_ok; cbn; lia|]. intros [].
  - destruct (roberts_life_ok (some_calls 9) (fun st _ => at_attempt true st)) as (st & rs & Hr & Ht); [vm_compute; reflexivity|].
    exists st. exact (at_attempt_ok true st Hr Ht).
  - destruct (roberts_life_ok (some_calls 2) (fun st _ => at_attempt false st)) as (st & rs & Hr & Ht); [vm_compute; reflexivity|].
    exists st. exact (at_attempt_ok false st Hr Ht).
Qed.

Print Assumptions C67_every_attempt.
