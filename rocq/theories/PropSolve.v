(** * PropSolve: calls of [solve] in any life of an integrator object, for
      every scalar: C45-C47, C68 (src/impl_solve.rs, src/impl_stop_test.rs) *)
Require Import List Arith Bool Lia Floats.
Import ListNotations.
Require Import Verif.Base Verif.Scalar Verif.ScalarF Verif.Dense Verif.Norms Verif.Newton Verif.NewtonSpec
  Verif.IdaState Verif.IdaNls Verif.IdaCore Verif.IdaRoots Verif.IdaSolve Verif.IdaIo Verif.BaseFacts
  Verif.NewtonFacts Verif.IdaFacts Verif.IdaLoops Verif.IdaStep Verif.IdaSpec Verif.IdaShell Verif.IdaReach
  Verif.IdaInv Verif.IdaCount Verif.IdaLife Verif.IdaTrace Verif.IdaInterp Verif.IdaCall Verif.Witness.
Open Scope nat_scope.

Section AnyScalar.
Context {T LSt NSt : Type} `{Scalar T} `{LSolver T LSt} `{NLSolver T NSt}.
Variable prob : problem T.
Variable ewt_set : list T -> list T.
Notation n := (model_size prob).
Notation nr := (num_roots prob).
Notation state := (ida T LSt NSt).
Notation tr st := (trace (lp (nlp st))).

Lemma reach_next c yy0 yp0 (st : state) fuel rfuel tout tret itask st' t r :
  reach prob ewt_set c yy0 yp0 st -> solve prob ewt_set fuel rfuel st tout tret itask = Ret (st', t, r) ->
  reach prob ewt_set c yy0 yp0 st'.
Proof.
  intros Hr E. eapply reach_call with (k := CallSolve tout tret itask); [exact Hr|].
  cbn [api_call]. rewrite E. reflexivity.
Qed.

Lemma core_hh (a b : state) : core a = core b -> hh a = hh b /\ tn (nlp a) = tn (nlp b).
Proof.
  intros C. apply core_fields in C.
  destruct C as (_ & C1 & C2 & _ & _ & _ & _ & _ & C3 & _ & _ & _ & C4 & C5 & _ & _ & _ & _ & C6 & _). auto.
Qed.

Lemma stop1_continue_one (st st' : state) tout tret t :
  stop_test1 prob st tout tret OneStep = Ret (st', t, Ok ContinueSteps) ->
  (szero <? (tn (nlp st) - tretlast st) * hh st)%sc = false.
Proof.
  unfold stop_test1. destruct (szero <? (tn (nlp st) - tretlast st) * hh st)%sc; [|reflexivity].
  intros E. exfalso. minv; discriminate.
Qed.

(** ** C46 *)
(** A step is pending when its end has not been returned yet; after a root
    return the internal time is pending unless the root is within the
    tolerance of it. *)
Definition pending (st : state) : bool := (szero <? (tn (nlp st) - tretlast st) * hh st)%sc.
Definition pending_root (st : state) : bool :=
  (0 <? nr) && irfnd st &&
  ((sabs (tn (nlp st)) + sabs (hh st)) * seps * shundred <? sabs (tn (nlp st) - tretlast st))%sc.

Theorem C46_one_step : @nls_lawful T NSt _ -> forall c yy0 yp0 (st : state) fuel rfuel tout tret st' t,
  config_ok c -> reach prob ewt_set c yy0 yp0 st ->
  solve prob ewt_set fuel rfuel st tout tret OneStep = Ret (st', t, Ok Success) ->
  t = tn (nlp st') /\ tretlast st' = t /\
  ((length (steps (tr st')) = length (steps (tr st)) + 1 /\
      (steps (tr st) <> [] -> pending st = false)) \/
   (length (steps (tr st')) = length (steps (tr st)) /\ steps (tr st) <> [] /\
      (pending st = true \/ pending_root st = true))).
Proof.
  intros Hl c yy0 yp0 st fuel rfuel tout tret st' t Hc Hr E.
  pose proof (reach_ord prob ewt_set Hl c yy0 yp0 st Hc Hr) as O.
  pose proof (reach_tlink prob ewt_set Hl c Hc yy0 yp0 st Hr) as TL.
  pose proof (reach_tlink prob ewt_set Hl c Hc yy0 yp0 st' (reach_next _ _ _ _ _ _ _ _ _ _ _ _ Hr E)) as TL'.
  rewrite (tl_n _ _ _ _ TL), (tl_n _ _ _ _ TL').
  assert (Hne : nst st <> 0 <-> steps (tr st) <> []).
  { rewrite <- (tl_n _ _ _ _ TL). destruct (steps (tr st)); cbn; split; congruence. }
  rewrite <- Hne. clear Hne.
  assert (Hnr : nrtfn st = nr).
  { destruct (tl_cfg _ _ _ _ TL) as (_ & _ & _ & _ & _ & _ & _ & _ & _ & _ & X & _). exact X. }
  destruct (solve_run _ _ _ _ _ _ _ _ _ _ _ E) as [A|(s0 & s & nl & m & En & L & F)].
  - pose proof (answers_nst _ _ _ _ _ _ _ _ _ _ A) as N.
    unfold answers in A.
    destruct (solve_start_cases _ _ _ _ _ _ _ _ A) as [(Hz & s & m & _ & Q)|[(Hz & s & l & E1 & E2 & E3 & E4 & Q)|(Hz & l & E1 & S1 & Q)]]; try discriminate.
    set (st1 := on_lp (fun _ => l) (task_set st tout OneStep)) in *.
    assert (Hz' : nst st <> 0) by exact Hz.
    assert (Q1 : kept (task_set st tout OneStep) = (outer st, (toutc st, OneStep), irfnd st)) by reflexivity.
    assert (Q2 : core st1 = core st).
    { rewrite (sh_core _ _ _ S1). reflexivity. }
    assert (Q3 : kept st1 = kept (task_set st tout OneStep)) by reflexivity.
    assert (Q4 : outer st1 = outer st) by reflexivity.
    assert (Q5 : nrtfn st1 = nrtfn st) by reflexivity.
    assert (Q6 : irfnd st1 = irfnd st) by reflexivity.
    clearbody st1. destruct (core_hh _ _ Q2) as (H2 & T2). destruct (outer_fields _ _ Q4) as (_ & R2 & _).
    destruct (later_call_cases _ _ _ _ _ _ _ Q) as [(_ & x & e & _ & X)|[(_ & x & _ & _ & X)|[(Y1 & _ & Y2 & Y3 & x & x' & r' & Y4 & Y5 & X)|(x & x' & t' & r' & Y1 & Y2 & Y3 & Y4 & X)]]]; try discriminate.
    + injection X as -> ->. destruct (gs_tn _ _ _ _ _ Y5) as (G1 & G2 & _). cbn [tretlast set_tretlast] in G2.
      split; [reflexivity|]. split; [rewrite G2, G1; reflexivity|]. right. split; [exact N|]. split; [exact Hz'|].
      right. unfold pending_root. unfold root_ttol in Y3. rewrite Q5, Hnr in Y1.
      rewrite H2, T2, R2 in Y3. rewrite Q6 in Y2. rewrite Y2, Y3.
      destruct (Nat.ltb_spec 0 nr); [reflexivity|lia].
    + assert (Hr' : r' = Ok Success) by (destruct r' as [[]|]; cbn in X; congruence). subst r'.
      injection X as -> ->. destruct (stop_test1_success _ _ _ _ _ _ _ Y4) as (_ & [(C & _)|(_ & P1 & P2 & P3 & _)]); [discriminate|].
      split; [exact P1|]. split; [congruence|]. right. split; [exact N|]. split; [exact Hz'|]. left.
      unfold pending. rewrite <- P3. destruct (core_hh _ _ (sh_core _ _ _ Y1)) as (H3 & T3).
      destruct (outer_fields _ _ Y2) as (_ & R3 & _). rewrite H3, T3, R3, H2, T2, R2. reflexivity.
  - pose proof (enters_head _ _ _ _ _ _ _ _ En) as Hd.
    destruct (head_loop _ _ _ _ _ _ _ _ _ _ Hd L) as (Hd2 & Hnl).
    assert (nl = 0) by (destruct nl; [reflexivity|specialize (Hnl ltac:(lia)); discriminate]). subst nl.
    destruct (ends_nst prob ewt_set Hl _ _ _ _ _ _ _ _ _ _ _ _ O Hd L F) as (N1 & N2 & _).
    destruct (start_nst prob ewt_set _ _ _ _ _ _ En) as (N3 & _).
    remember (Ok Success) as r eqn:Er0.
    destruct F as [st' t r Ep|s1 s2 e st' t r Ep Es Ef|s1 s2 u st' t r Ep Es Ef Hr'].
    + apply pre_step_shell in Ep. destruct Ep as (_ & _ & [(Er & _)|(_ & [Er|Er])]); congruence.
    + apply step_failed_shell in Ef. destruct Ef as (_ & Er & _). congruence.
    + apply post_step_cases in Ef. destruct Ef as [(_ & x & _ & _ & _ & _ & X)|(x & X1 & X2 & X3 & X4)]; [congruence|].
      subst r.
      destruct (stop_test2_success _ _ _ _ _ _ _ X4) as [(C & _)|(_ & P1 & P2 & _)]; [discriminate|].
      split; [exact P1|]. split; [congruence|]. left. split; [lia|]. intros Hz.
      unfold enters in En.
      destruct (solve_start_cases _ _ _ _ _ _ _ _ En) as [(Hz2 & _)|[(Hz2 & _)|(Hz2 & l & E1 & S1 & Q)]];
        try (exfalso; apply Hz; exact Hz2).
      set (st1 := on_lp (fun _ => l) (task_set st tout OneStep)) in *.
      assert (Q2 : core st1 = core st) by (rewrite (sh_core _ _ _ S1); reflexivity).
      assert (Q4 : outer st1 = outer st) by reflexivity. clearbody st1.
      destruct (core_hh _ _ Q2) as (H2 & T2). destruct (outer_fields _ _ Q4) as (_ & R2 & _).
      destruct (later_call_cases _ _ _ _ _ _ _ Q) as [(_ & y & e & _ & X)|[(_ & y & _ & _ & X)|[(_ & _ & _ & _ & y & y' & r' & _ & _ & X)|(y & y' & t' & r' & Y1 & Y2 & Y3 & Y4 & X)]]]; try discriminate.
      assert (Hr2 : r' = Ok ContinueSteps) by (destruct r' as [[]|]; cbn in X; congruence). subst r'.
      apply stop1_continue_one in Y4. unfold pending. rewrite <- Y4.
      destruct (core_hh _ _ (sh_core _ _ _ Y1)) as (H3 & T3).
      destruct (outer_fields _ _ Y2) as (_ & R3 & _). rewrite H3, T3, R3, H2, T2, R2. reflexivity.
Qed.

(** ** C47 *)
Lemma r_check2_err (st s : state) e : r_check2 prob st = Ret (s, Err e) -> exists t, e = EIda (CloseRoots t).
Proof.
  unfold r_check2. intros E. minv; eauto; try discriminate.
  all: match goal with X : Ok _ = Err _ |- _ => discriminate X | _ => idtac end.
Qed.

Lemma gs_err (st s : state) t e : get_solution prob st t = Ret (s, Err e) ->
  exists a b d, e = EIda (BadTimeValue a b d).
Proof.
  unfold get_solution. destruct (time_check st t) eqn:Et; intros E.
  - injection E as <- <-. unfold time_check in Et. destruct (_ <? _)%sc; [|discriminate]. injection Et as <-. eauto.
  - cbv zeta in E. minv; discriminate.
Qed.

Lemma stop1_err (st s : state) tout tret itask t e : stop_test1 prob st tout tret itask = Ret (s, t, Err e) ->
  e <> EIda (IllegalIn TooMuchWork).
Proof.
  unfold stop_test1. intros E.
  minv; try discriminate;
    match goal with X : get_solution _ _ _ = Ret (_, Err _) |- _ => destruct (gs_err _ _ _ _ X) as (? & ? & ? & ->); discriminate | _ => idtac end.
Qed.

Lemma first_call_err (st s : state) tout m : first_call prob ewt_set st tout = Ret (inl (s, m)) -> m <> TooMuchWork.
Proof. unfold first_call, first_step. intros E. minv; try discriminate. Qed.

Lemma step_err fuel (st s : state) e : @nls_lawful T NSt _ -> ordok st -> step prob fuel st = Ret (s, Err e) ->
  e <> EIda (IllegalIn TooMuchWork).
Proof.
  intros Hl O E. apply (step_spec prob Hl) in E; [|exact O].
  destruct E as (sta & nef & st1 & ck & ek & ek1 & r1 & _ & _ & _ & [(_ & C & _)|(e1 & _ & _ & [(_ & _ & _ & C & _)|((m & M) & C & _)])]);
    congruence.
Qed.

Theorem C47_step_limit : @nls_lawful T NSt _ -> forall c yy0 yp0 (st : state) fuel rfuel tout tret itask st' t r,
  config_ok c -> reach prob ewt_set c yy0 yp0 st -> 0 < g_mxstep c ->
  solve prob ewt_set fuel rfuel st tout tret itask = Ret (st', t, r) ->
  length (steps (tr st')) <= length (steps (tr st)) + g_mxstep c /\
  (r = Err (EIda (IllegalIn TooMuchWork)) ->
     length (steps (tr st')) = length (steps (tr st)) + g_mxstep c /\ t = tn (nlp st')).
Proof.
  intros Hl c yy0 yp0 st fuel rfuel tout tret itask st' t r Hc Hr Hm E.
  pose proof (reach_ord prob ewt_set Hl c yy0 yp0 st Hc Hr) as O.
  pose proof (reach_tlink prob ewt_set Hl c Hc yy0 yp0 st Hr) as TL.
  pose proof (reach_tlink prob ewt_set Hl c Hc yy0 yp0 st' (reach_next _ _ _ _ _ _ _ _ _ _ _ _ Hr E)) as TL'.
  rewrite (tl_n _ _ _ _ TL), (tl_n _ _ _ _ TL').
  assert (Hmx : mxstep st = g_mxstep c).
  { destruct (tl_cfg _ _ _ _ TL) as (_ & _ & X & _). exact X. }
  destruct (solve_run _ _ _ _ _ _ _ _ _ _ _ E) as [A|(s0 & s & nl & m & En & L & F)].
  - pose proof (answers_nst _ _ _ _ _ _ _ _ _ _ A) as N. split; [lia|]. intros ->. exfalso. unfold answers in A.
    destruct (solve_start_cases _ _ _ _ _ _ _ _ A) as [(Hz & s & m & X & Q)|[(Hz & s & l & E1 & E2 & E3 & E4 & Q)|(Hz & l & E1 & S1 & Q)]]; try discriminate.
    + injection Q as <- <- <-. exact (first_call_err _ _ _ _ X eq_refl).
    + destruct (later_call_cases _ _ _ _ _ _ _ Q) as [(_ & y & e & X & Y)|[(_ & y & _ & _ & X)|[(_ & _ & _ & _ & y & y' & r' & _ & _ & X)|(y & y' & t' & r' & Y1 & Y2 & Y3 & Y4 & X)]]]; try discriminate.
      * injection Y as _ _ <-. apply r_check2_err in X. destruct X as (? & X). discriminate.
      * assert (Hr2 : r' = Err (EIda (IllegalIn TooMuchWork))) by (destruct r' as [[]|]; cbn in X; congruence).
        subst r'. exact (stop1_err _ _ _ _ _ _ _ Y4 eq_refl).
  - pose proof (enters_head _ _ _ _ _ _ _ _ En) as Hd.
    destruct (ends_nst prob ewt_set Hl _ _ _ _ _ _ _ _ _ _ _ _ O Hd L F) as (N1 & N2 & N4).
    destruct (start_nst prob ewt_set _ _ _ _ _ _ En) as (N3 & C3). apply mx_cfg in C3. rewrite C3, Hmx in N4.
    split; [lia|]. intros ->.
    destruct (loops_nst prob ewt_set Hl _ _ _ _ _ _ _ _ O Hd L) as (N5 & C5 & _). apply mx_cfg in C5.
    destruct (head_loop _ _ _ _ _ _ _ _ _ _ Hd L) as (Hd2 & _).
    pose proof (pieces_ord prob ewt_set Hl _ _ O (hd_pieces _ _ _ _ _ _ Hd2)) as Os.
    remember (Err (EIda (IllegalIn TooMuchWork))) as r eqn:Er0.
    destruct F as [st' t r Ep|s1 s2 e st' t r Ep Es Ef|s1 s2 u st' t r Ep Es Ef Hr'].
    + apply pre_step_shell in Ep. destruct Ep as (S1 & Et & [(_ & M)|(_ & [Er|Er])]).
      * split; [rewrite C5, C3, Hmx in M; lia|]. rewrite Et. destruct (core_hh _ _ (sh_core _ _ _ S1)) as (_ & X).
        symmetry. exact X.
      * rewrite Er in Er0. discriminate.
      * rewrite Er in Er0. discriminate.
    + exfalso. apply step_failed_shell in Ef. destruct Ef as (_ & Er & _).
      apply pre_step_shell in Ep. destruct Ep as (S1 & _).
      apply (step_err _ _ _ _ Hl (shell_ord _ _ _ S1 Os) Es). congruence.
    + exfalso. apply post_step_cases in Ef. destruct Ef as [(_ & x & _ & _ & _ & _ & X)|(x & X1 & X2 & X3 & X4)]; [congruence|].
      subst r. unfold stop_test2 in X4. minv; try discriminate.
      all: match goal with X : stop2_tstop _ _ = Ret _ |- _ => apply stop2_tstop_cases in X; cbn in X; destruct X as (X & _); discriminate end.
Qed.

(** ** C68 *)
(** No public method sets a stop time, so [g_tstop c = None] in any program. *)
Theorem C68_no_stop_time : @nls_lawful T NSt _ -> forall c yy0 yp0 (st : state) fuel rfuel tout tret itask st' t r,
  config_ok c -> g_tstop c = None -> reach prob ewt_set c yy0 yp0 st ->
  solve prob ewt_set fuel rfuel st tout tret itask = Ret (st', t, r) -> r <> Ok TStop.
Proof.
  intros Hl c yy0 yp0 st fuel rfuel tout tret itask st' t r Hc Hs Hr E ->.
  pose proof (reach_ord prob ewt_set Hl c yy0 yp0 st Hc Hr) as O.
  pose proof (reach_tlink prob ewt_set Hl c Hc yy0 yp0 st Hr) as TL.
  assert (N : forall s : state, tlink prob c None s -> tstop s = None).
  { intros s X. destruct (tl_tstop _ _ _ _ X) as [Y|Y]; congruence. }
  assert (P : forall s : state, pieces prob ewt_set st s -> tlink prob c None s).
  { intros s X. exact (pieces_tlink prob ewt_set Hl c st s Hc O TL X). }
  destruct (solve_run _ _ _ _ _ _ _ _ _ _ _ E) as [A|(s0 & s & nl & m & En & L & F)].
  - unfold answers in A. pose proof (task_set_shell prob st tout itask) as S0.
    destruct (solve_start_cases _ _ _ _ _ _ _ _ A) as [(Hz & s & m & X & Q)|[(Hz & s & l & E1 & E2 & E3 & E4 & Q)|(Hz & l & E1 & S1 & Q)]]; try discriminate.
    destruct (later_call_cases _ _ _ _ _ _ _ Q) as [(_ & y & e & X & Y)|[(_ & y & _ & _ & X)|[(_ & _ & _ & _ & y & y' & r' & _ & _ & X)|(y & y' & t' & r' & Y1 & Y2 & Y3 & Y4 & X)]]]; try discriminate.
    assert (Hr2 : r' = Ok TStop) by (destruct r' as [[]|]; cbn in X; congruence). subst r'.
    apply stop_test1_tstop in Y4. destruct Y4 as (ts & x & Y & _).
    assert (Z : tstop y = None).
    { apply N, P. apply piece1, p_shell. eapply shell_trans; [exact S0|]. eapply shell_trans; [exact S1|exact Y1]. }
    congruence.
  - pose proof (run_head _ _ _ _ _ _ _ _ _ _ En L) as Hd.
    remember (Ok TStop) as r eqn:Er0.
    destruct F as [st' t r Ep|s1 s2 e st' t r Ep Es Ef|s1 s2 u st' t r Ep Es Ef Hr'].
    + apply pre_step_shell in Ep. destruct Ep as (_ & _ & [(Er & _)|(_ & [Er|Er])]); congruence.
    + apply step_failed_shell in Ef. destruct Ef as (_ & Er & _). congruence.
    + pose proof (head_step _ _ _ _ _ _ _ _ _ _ _ _ Hd Ep Es) as P2.
      apply post_step_cases in Ef. destruct Ef as [(_ & x & _ & _ & _ & _ & X)|(x & X1 & X2 & X3 & X4)]; [congruence|].
      subst r. apply stop_test2_tstop in X4. destruct X4 as (ts & y & r' & Y & _).
      assert (Z : tstop x = None). { apply N, P. exact (pieces_shell _ _ _ _ _ P2 X1). }
      congruence.
Qed.

(** ** C45 *)
(** In the second case [r] is [Ok] over the reals: C45_outputs_at_tout. *)
Lemma C45_path : @nls_lawful T NSt _ -> forall c yy0 yp0 (st : state) fuel rfuel tout tret st' t,
  config_ok c -> reach prob ewt_set c yy0 yp0 st ->
  solve prob ewt_set fuel rfuel st tout tret Normal = Ret (st', t, Ok Success) ->
  t = tout /\ tretlast st' = tout /\
  (((tout =? tretlast st)%sc = true /\ steps (tr st') = steps (tr st) /\ steps (tr st) <> [] /\
      (nr = 0 -> yy (nlp st') = yy (nlp st) /\ yp (nlp st') = yp (nlp st))) \/
   ((szero <=? (tn (nlp st') - tout) * hh st')%sc = true /\
      exists s r, get_solution prob st' tout = Ret (s, r) /\
        yy (nlp s) = yy (nlp st') /\ yp (nlp s) = yp (nlp st') /\
        (r = Ok tt \/ exists s s1 s2 nl u, head prob ewt_set tout Normal st s /\
           pre_step prob ewt_set s tret nl = Ret (inr s1) /\ step prob rfuel s1 = Ret (s2, Ok u) /\
           core st' = core s2))).
Proof.
  intros Hl c yy0 yp0 st fuel rfuel tout tret st' t Hc Hr E.
  pose proof (reach_ord prob ewt_set Hl c yy0 yp0 st Hc Hr) as O.
  pose proof (reach_tlink prob ewt_set Hl c Hc yy0 yp0 st Hr) as TL.
  pose proof (reach_next _ _ _ _ _ _ _ _ _ _ _ _ Hr E) as Hr'.
  pose proof (reach_tlink prob ewt_set Hl c Hc yy0 yp0 st' Hr') as TL'.
  pose proof (reach_ord prob ewt_set Hl c yy0 yp0 st' Hc Hr') as O'.
  assert (Hnr : nrtfn st = nr).
  { destruct (tl_cfg _ _ _ _ TL) as (_ & _ & _ & _ & _ & _ & _ & _ & _ & _ & X & _). exact X. }
  destruct (solve_run _ _ _ _ _ _ _ _ _ _ _ E) as [A|(s0 & s & nl & m & En & L & F)].
  - unfold answers in A. pose proof (task_set_shell prob st tout Normal) as S0.
    destruct (solve_start_cases _ _ _ _ _ _ _ _ A) as [(Hz & s & m & X & Q)|[(Hz & s & l & E1 & E2 & E3 & E4 & Q)|(Hz & l & E1 & S1 & Q)]]; try discriminate.
    set (st1 := on_lp (fun _ => l) (task_set st tout Normal)) in *.
    assert (Q2 : core st1 = core st) by (rewrite (sh_core _ _ _ S1); reflexivity).
    assert (Q4 : outer st1 = outer st) by reflexivity.
    assert (Q5 : nrtfn st1 = nrtfn st) by reflexivity.
    assert (Q6 : yy (nlp st1) = yy (nlp st) /\ yp (nlp st1) = yp (nlp st)) by (split; reflexivity).
    assert (S01 : shell prob st st1) by (eapply shell_trans; eassumption).
    clearbody st1. destruct (outer_fields _ _ Q4) as (_ & R2 & _).
    destruct (later_call_cases _ _ _ _ _ _ _ Q) as [(_ & y & e & X & Y)|[(_ & y & _ & _ & X)|[(_ & X0 & _ & _ & y & y' & r' & _ & _ & X)|(y & y' & t' & r' & Y1 & Y2 & Y3 & Y4 & X)]]]; try discriminate.
    assert (Hr2 : r' = Ok Success) by (destruct r' as [[]|]; cbn in X; congruence). subst r'.
    injection X as <- <-. destruct (outer_fields _ _ Y2) as (_ & R3 & _).
    pose proof (shell_trans _ _ _ _ S01 Y1) as S2. pose proof (shell_ord _ _ _ S2 O) as Oy.
    destruct (stop_test1_success _ _ _ _ _ _ _ Y4) as (_ & [(_ & P1 & P2 & P3)|(C & _)]); [|discriminate].
    split; [exact P1|]. split; [exact P2|]. destruct P3 as [(P3 & P4)|(P3 & P4 & g & P5 & P6)].
    + left. rewrite <- R2, <- R3. split; [exact P3|].
      assert (Tr : exists evs, tr st' = evs ++ tr st /\ Forall (fun e => is_root e || is_warn e = true) evs).
      { destruct (sh_trace _ _ _ S2) as (evs & T1 & T2 & _). exists evs. rewrite P4. split; [exact T1|exact T2]. }
      destruct Tr as (evs & T1 & T2). rewrite T1.
      assert (Cm : Forall (fun e => calm e = true) evs).
      { eapply Forall_impl; [|exact T2]. intros []; cbn; congruence. }
      destruct (calm_app evs (tr st) Cm) as (_ & _ & Es & _).
      split; [exact Es|]. split.
      * intros Z. apply (f_equal (@length _)) in Z. rewrite (tl_n _ _ _ _ TL) in Z. apply Hz. exact Z.
      * intros Hn. rewrite P4. rewrite (Y3 ltac:(congruence)). exact Q6.
    + right. subst st'. destruct (gs_tn _ _ _ _ _ P5) as (G1 & _).
      assert (Cg : core (set_tretlast tout g) = core y).
      { pose proof (sh_core _ _ _ (get_solution_shell _ _ _ _ _ P5)) as C. exact C. }
      destruct (core_hh _ _ Cg) as (H3 & T3). rewrite H3, T3. split; [exact P4|].
      destruct Oy as (Ay & My & _ & Ky & _). destruct O' as (A' & _).
      destruct (gs_again prob y g (set_tretlast tout g) tout (Ok tt)) as (b & B1 & B2 & B3); auto; try lia.
      exists b, (Ok tt). auto 6.
  - pose proof (run_head _ _ _ _ _ _ _ _ _ _ En L) as Hd.
    remember (Ok Success) as r eqn:Er0.
    destruct F as [st' t r Ep|s1 s2 e st' t r Ep Es Ef|s1 s2 u st' t r Ep Es Ef Hr2].
    + apply pre_step_shell in Ep. destruct Ep as (_ & _ & [(Er & _)|(_ & [Er|Er])]); congruence.
    + apply step_failed_shell in Ef. destruct Ef as (_ & Er & _). congruence.
    + pose proof (head_step _ _ _ _ _ _ _ _ _ _ _ _ Hd Ep Es) as P2.
      apply post_step_cases in Ef. destruct Ef as [(_ & x & _ & _ & _ & _ & X)|(x & X1 & X2 & X3 & X4)]; [congruence|].
      subst r. destruct (stop_test2_success _ _ _ _ _ _ _ X4) as [(_ & P3 & P4 & P5 & r & P6)|(C & _)]; [|discriminate].
      split; [exact P3|]. split; [exact P4|]. right.
      assert (Cg : core st' = core (set_tretlast tout x)).
      { exact (sh_core _ _ _ (get_solution_shell _ _ _ _ _ P6)). }
      destruct (core_hh _ _ Cg) as (H3 & T3). rewrite H3, T3. split; [exact P5|].
      pose proof (pieces_ord prob ewt_set Hl _ _ O (pieces_shell _ _ _ _ _ P2 X1)) as (Ax & Mx & _ & Kx & _).
      destruct O' as (A' & _).
      destruct (gs_again prob (set_tretlast tout x) st' st' tout r) as (b & B1 & B2 & B3); auto; try (cbn; lia).
      exists b, r. split; [exact B1|]. split; [exact B2|]. split; [exact B3|]. right.
      exists s, s1, s2, nl, u. split; [exact Hd|]. split; [exact Ep|]. split; [exact Es|].
      rewrite Cg. exact (sh_core _ _ _ X1).
Qed.

Theorem C45_normal_success : @nls_lawful T NSt _ -> forall c yy0 yp0 (st : state) fuel rfuel tout tret st' t,
  config_ok c -> reach prob ewt_set c yy0 yp0 st ->
  solve prob ewt_set fuel rfuel st tout tret Normal = Ret (st', t, Ok Success) ->
  t = tout /\ tretlast st' = tout /\
  (((tout =? tretlast st)%sc = true /\ steps (tr st') = steps (tr st) /\ steps (tr st) <> [] /\
      (nr = 0 -> yy (nlp st') = yy (nlp st) /\ yp (nlp st') = yp (nlp st))) \/
   ((szero <=? (tn (nlp st') - tout) * hh st')%sc = true /\
      exists s r, get_solution prob st' tout = Ret (s, r) /\
        yy (nlp s) = yy (nlp st') /\ yp (nlp s) = yp (nlp st'))).
Proof.
  intros Hl c yy0 yp0 st fuel rfuel tout tret st' t Hc Hr E.
  destruct (C45_path Hl _ _ _ _ _ _ _ _ _ _ Hc Hr E) as (A & B & C). split; [exact A|]. split; [exact B|].
  destruct C as [C|(C & s & r & D1 & D2 & D3 & _)]; [left; exact C|right]. split; [exact C|]. exists s, r. auto.
Qed.
End AnyScalar.
Print Assumptions C45_normal_success.
Print Assumptions C46_one_step.
Print Assumptions C47_step_limit.
Print Assumptions C68_no_stop_time.

(** ** Concrete cases *)
Set Warnings "-inexact-float".
Open Scope float_scope.

(** A call after the calls [cs] on the object of the Roberts example. *)
Definition then_solve (tout : float) (itask : task) (p : fstate -> fstate -> float -> result solve_status (err float) -> bool)
    (st : fstate) (_ : list (@reply float)) : bool :=
  match solve robertsF roberts_ewt 600 100 st tout 0 itask with Ret (st', t, r) => p st st' t r | _ => false end.

Lemma roberts_then cs tout itask p : roberts_life cs (then_solve tout itask p) = true ->
  exists st st' t r, roberts_reach st /\ solve robertsF roberts_ewt 600 100 st tout 0 itask = Ret (st', t, r) /\
    p st st' t r = true.
Proof.
  intros E. destruct (roberts_life_ok cs _ E) as (st & rs & Hr & Ht). unfold then_solve in Ht.
  destruct (solve robertsF roberts_ewt 600 100 st tout 0 itask) as [((st' & t) & r)| |] eqn:Es; try discriminate.
  exists st, st', t, r. auto.
Qed.

(** [Normal] reaches a requested time, and is asked for it again. *)
Example C45_hypotheses_met :
  (exists st st' t, roberts_reach st /\
     solve robertsF roberts_ewt 600 100 st 4 0 Normal = Ret (st', t, Ok Success) /\ (nst st + 3 <= nst st')%nat) /\
  (exists st st' t, roberts_reach st /\
     solve robertsF roberts_ewt 600 100 st 4 0 Normal = Ret (st', t, Ok Success) /\ nst st = nst st').
Proof.
  split.
  - destruct (roberts_then [CallSolve 0.4 0 Normal; CallSolve 0.4 0 Normal] 4 Normal
      (fun st st' t r => match r with Ok Success => (nst st + 3 <=? nst st')%nat | _ => false end))
      as (st & st' & t & r & Hr & E & Ht); [vm_compute; reflexivity|].
    destruct r as [[]|]; try discriminate. exists st, st', t. rewrite E. apply Nat.leb_le in Ht. auto.
  - destruct (roberts_then to_4 4 Normal
      (fun st st' t r => match r with Ok Success => (nst st =? nst st')%nat | _ => false end))
      as (st & st' & t & r & Hr & E & Ht); [vm_compute; reflexivity|].
    destruct r as [[]|]; try discriminate. exists st, st', t. rewrite E. apply Nat.eqb_eq in Ht. auto.
Qed.

(** [OneStep] takes a step, and after [Normal] returns the pending one. *)
Example C46_hypotheses_met :
  (exists st st' t, roberts_reach st /\ nst st = 2%nat /\
     solve robertsF roberts_ewt 600 100 st 4 0 OneStep = Ret (st', t, Ok Success) /\ nst st' = 3%nat) /\
  (exists st st' t, roberts_reach st /\ nst st <> 0%nat /\
     solve robertsF roberts_ewt 600 100 st 4 0 OneStep = Ret (st', t, Ok Success) /\ nst st' = nst st).
Proof.
  split.
  - destruct (roberts_then [CallSolve 0.4 0 OneStep; CallSolve 0.4 0 OneStep] 4 OneStep
      (fun st st' t r => match r with Ok Success => (nst st =? 2)%nat && (nst st' =? 3)%nat | _ => false end))
      as (st & st' & t & r & Hr & E & Ht); [vm_compute; reflexivity|].
    destruct r as [[]|]; try discriminate. exists st, st', t. rewrite E.
    apply andb_true_iff in Ht. rewrite !Nat.eqb_eq in Ht. tauto.
  - destruct (roberts_then to_4 4 OneStep
      (fun st st' t r => match r with Ok Success => negb (nst st =? 0)%nat && (nst st' =? nst st)%nat | _ => false end))
      as (st & st' & t & r & Hr & E & Ht); [vm_compute; reflexivity|].
    destruct r as [[]|]; try discriminate. exists st, st', t. rewrite E.
    apply andb_true_iff in Ht. rewrite negb_true_iff, Nat.eqb_eq, Nat.eqb_neq in Ht. tauto.
Qed.

(** With a limit of five steps per call. *)
Definition roberts5 : config :=
  mkconfig 5 5 10 10 0 0 0.33 0 None false (repeat false 3) (repeat 0%nat 2).
Example C47_hypotheses_met :
  config_ok roberts5 /\ (0 < g_mxstep roberts5)%nat /\
  exists st st' t : _, reach robertsF roberts_ewt roberts5 [1; 0; 0] [-0.04; 0.04; 0] st /\
    solve robertsF roberts_ewt 600 100 st 4 0 Normal =
      Ret (st' : fstate, t, Err (EIda (IllegalIn TooMuchWork))) /\ (nst st' = nst st + 5)%nat.
Proof.
  split; [unfold config_ok; cbn; lia|]. split; [cbn; lia|].
  destruct (life_test_ok robertsF roberts_ewt roberts5 [1; 0; 0] [-0.04; 0.04; 0] 600 100 [CallSolve 4 0 OneStep]
    (then_solve 4 Normal (fun st st' t r => match r with Err (EIda (IllegalIn TooMuchWork)) => (nst st' =? nst st + 5)%nat | _ => false end)))
    as (st & rs & Hr & Ht); [vm_compute; reflexivity|].
  unfold then_solve in Ht. destruct (solve robertsF roberts_ewt 600 100 st 4 0 Normal) as [((st' & t) & r)| |] eqn:E; try discriminate.
  destruct r as [|[[|[] | | | | | | | | | ]| | ]]; try discriminate. exists st, st', t.
  rewrite E. apply Nat.eqb_eq in Ht. auto.
Qed.

(** The configuration every program has; one of its lives. *)
Example C68_hypotheses_met : config_ok robertsD /\ g_tstop robertsD = None /\
  exists st st' t, roberts_reach st /\
    solve robertsF roberts_ewt 600 100 st 4 0 OneStep = Ret (st', t, Ok Success) /\ nst st' = 3%nat.
Proof.
  split; [unfold config_ok; cbn; lia|]. split; [reflexivity|].
  destruct C46_hypotheses_met as ((st & st' & t & ? & ? & ? & ?) & _). exists st, st', t. auto.
Qed.
