(** * PropOnward: C89, the times returned go on in the direction of integration
    In arithmetic with rounding, for problems without root functions and lives
    without a stop time: no returned time is behind the one returned before, and
    none is ahead of the internal time. *)
Require Import List Arith Bool Lia Reals Lra Psatz.
Import ListNotations.
Require Import Verif.Base Verif.Scalar Verif.ScalarR Verif.RoundR Verif.Dense Verif.Norms Verif.Newton Verif.NewtonSpec
  Verif.IdaState Verif.IdaNls Verif.IdaCore Verif.IdaRoots Verif.IdaSolve Verif.IdaIo Verif.BaseFacts Verif.NewtonFacts
  Verif.IdaFacts Verif.IdaLoops Verif.IdaStep Verif.IdaSpec Verif.IdaShell Verif.IdaReach Verif.IdaInv
  Verif.IdaCount Verif.IdaLife Verif.IdaTrace Verif.IdaStepR Verif.IdaSafe Verif.IdaCall Verif.PropSafe
  Verif.IdaStepRnd Verif.PropTimesRnd Verif.RootRnd Verif.RootWalk Verif.PropRootsRnd Verif.PropReturn Verif.PropSolve Verif.ReturnAny
  Verif.PropReturnRnd Verif.PropForwardRnd.
Open Scope R_scope.

(** ** The stop tests without a stop time, for every scalar *)
Section Any.
Context {T LSt NSt : Type} `{Scalar T} `{LSolver T LSt} `{NLSolver T NSt}.
Variable prob : problem T.
Notation state := (ida T LSt NSt).

Lemma stop1_none (b s : state) tout tret itask t q : tstop b = None -> stop_test1 prob b tout tret itask = Ret (s, t, Ok q) ->
  tn (nlp s) = tn (nlp b) /\ hh s = hh b /\ nst s = nst b /\
  (q = ContinueSteps /\ t = tret \/
   q <> ContinueSteps /\ tretlast s = t /\
   (itask = Normal /\ t = tout /\ ((tout =? tretlast b)%sc = true \/ reached_tout b tout = true) \/
    itask = OneStep /\ t = tn (nlp b))).
Proof.
  intros En E. unfold stop_test1 in E. rewrite En in E. unfold reached_tout.
  assert (Cs : forall x y : state, shell prob x y -> tn (nlp y) = tn (nlp x) /\ hh y = hh x /\ nst y = nst x).
  { intros x y S. pose proof (core_fields _ _ (sh_core _ _ _ S)) as Cf. pose proof (shell_nst _ _ _ S). tauto. }
  destruct itask.
  - destruct (tout =? tretlast b)%sc.
    { injection E as <- <- <-. do 3 (split; [reflexivity|]). right. split; [discriminate|]. split; [reflexivity|]. left. auto. }
    destruct (szero <=? _)%sc.
    + apply bind_ret_inv in E. destruct E as ((d & r) & Eg & E). cbv beta iota in E. destruct r; [|discriminate].
      injection E as <- <- <-. apply get_solution_shell in Eg. destruct (Cs _ _ Eg) as (A & B & C).
      split; [exact A|]. split; [exact B|]. split; [exact C|]. right. split; [discriminate|]. split; [reflexivity|]. left. auto.
    + injection E as <- <- <-. do 3 (split; [reflexivity|]). left. auto.
  - destruct (szero <? _)%sc.
    + apply bind_ret_inv in E. destruct E as ((d & r) & Eg & E). cbv beta iota in E. injection E as <- <- <-.
      apply get_solution_shell in Eg. destruct (Cs _ _ Eg) as (A & B & C).
      split; [exact A|]. split; [exact B|]. split; [exact C|]. right. split; [discriminate|]. split; [reflexivity|]. right. auto.
    + injection E as <- <- <-. do 3 (split; [reflexivity|]). left. auto.
Qed.

Lemma stop2_none (b s : state) tout tret itask t r : tstop b = None -> stop_test2 prob b tout tret itask = Ret (s, t, r) ->
  tn (nlp s) = tn (nlp b) /\ hh s = hh b /\ nst s = nst b /\
  (r = Ok ContinueSteps /\ t = tret \/
   r = Ok Success /\ tretlast s = t /\
   (itask = Normal /\ t = tout /\ reached_tout b tout = true \/ itask = OneStep /\ t = tn (nlp b))).
Proof.
  intros En E. unfold stop_test2, stop2_tstop in E. rewrite En in E. unfold reached_tout. destruct itask.
  - destruct (szero <=? _)%sc.
    + apply bind_ret_inv in E. destruct E as ((d & x) & Eg & E). cbv beta iota in E. injection E as <- <- <-.
      destruct (gs_asked _ _ _ _ _ Eg) as (_ & _ & Er).
      apply get_solution_shell in Eg. pose proof (core_fields _ _ (sh_core _ _ _ Eg)) as Cf. pose proof (shell_nst _ _ _ Eg) as Sn.
      split; [tauto|]. split; [tauto|]. split; [exact Sn|]. right. split; [reflexivity|]. split; [exact Er|]. left. auto.
    + injection E as <- <- <-. do 3 (split; [reflexivity|]). left. auto.
  - injection E as <- <- <-. do 3 (split; [reflexivity|]). right. split; [reflexivity|]. split; [reflexivity|]. right. auto.
Qed.
End Any.

Section Rnd.
Variables (u : R) (rnd : R -> R).
Hypothesis Hf : f64_like u rnd.
Let Hg : regular u rnd := f64_like_regular u rnd Hf.
Local Instance SRo : Scalar R := ScalarRnd rnd.
Context {LSt NSt : Type} `{LSolver R LSt} `{NLSolver R NSt}.
Variable prob : problem R.
Variable ewt_set : list R -> list R.
Hypothesis Hl : @nls_lawful R NSt _.
Notation nr := (num_roots prob).
Notation state := (ida R LSt NSt).
Variable c : @config R.
Hypothesis Hc : config_ok c.
Hypothesis Ht0 : rnd (g_t0 c) = g_t0 c.
Hypothesis Hnone : g_tstop c = None.
Hypothesis Hnr : nr = 0%nat.
Notation D := (D u rnd prob c).

Lemma none_rep : forall ts, g_tstop c = Some ts -> rnd ts = ts.
Proof. rewrite Hnone. discriminate. Qed.

Lemma D_plain (s : state) : D None s -> tstop s = None /\ nrtfn s = 0%nat.
Proof.
  intros (L & _). destruct (tl_tstop _ _ _ _ L) as [Y|Y]; (split; [congruence|]);
    pose proof (tl_cfg _ _ _ _ L) as Q; unfold cfg_is in Q; assert (nrtfn s = nr) by tauto; congruence.
Qed.

(** Between two calls: the last returned time [tl] is not ahead of the internal time. *)
Definition behind (st : state) (tl : R) : Prop :=
  (nst st = 0%nat -> tl = tn (nlp st)) /\
  (nst st <> 0%nat -> tretlast st = tl /\ 0 <= (tn (nlp st) - tl) * hh st).

Section Call.
Variable st : state.
Hypothesis O : ordok st.
Hypothesis Ds : D None st.
Variables (tout tl : R) (itask : task).
Hypothesis Hb : behind st tl.

Lemma tset_same : tn (nlp (task_set st tout itask)) = tn (nlp st) /\ hh (task_set st tout itask) = hh st /\
  nst (task_set st tout itask) = nst st /\ tretlast (task_set st tout itask) = tretlast st /\ tstop (task_set st tout itask) = tstop st /\
  nrtfn (task_set st tout itask) = nrtfn st.
Proof. unfold task_set; destruct itask; repeat split. Qed.

(** Not behind [tl], and in the direction of the calls before. *)
Definition past (s : state) : Prop := 0 <= (tn (nlp s) - tl) * hh s /\ (nst st <> 0%nat -> 0 < hh s * hh st).

Lemma enters_past rfuel tret (s : state) : enters prob ewt_set rfuel st tout tret itask s -> past s.
Proof.
  intros En. destruct tset_same as (X1 & X2 & X3 & X4 & X5 & X6). unfold enters in En.
  destruct (D_plain _ Ds) as (Pt & Pn). destruct Hb as (B0 & B1).
  destruct (solve_start_cases _ _ _ _ _ _ _ _ En) as [(Hz & s0 & m & _ & C)|[(Hz & s0 & l & E1 & _ & _ & _ & Q)|(Hz & l & E1 & S1 & Q)]].
  - discriminate.
  - injection Q as ->. destruct (first_asked _ _ _ _ _ E1) as (_ & Et & _).
    rewrite X3 in Hz. assert (E : tn (nlp (on_lp (fun _ => l) s0)) = tl) by (rewrite (B0 Hz), <- X1; exact Et).
    split; [rewrite E; lra|]. intros C. destruct (C Hz).
  - rewrite X3 in Hz. destruct (B1 Hz) as (_ & B).
    destruct (later_call_cases _ _ _ _ _ _ _ Q) as [(C & _)|[(C & _)|[(C & _)|(y & y' & t' & r' & _ & _ & Y3 & Y4 & X)]]];
      try (exfalso; apply C; exact (eq_trans X6 Pn)).
    rewrite (Y3 (eq_trans X6 Pn)) in Y4.
    destruct r' as [q|]; [|discriminate]. destruct (stop1_none _ (on_lp (fun _ => l) (task_set st tout itask)) _ _ _ _ _ _ (eq_trans X5 Pt) Y4) as (A1 & A2 & _).
    assert (Ey : s = y') by (destruct q; cbn in X; congruence). subst s.
    assert (A1' : tn (nlp y') = tn (nlp st)) by (rewrite <- X1; exact A1).
    assert (A2' : hh y' = hh st) by (rewrite <- X2; exact A2).
    unfold past. rewrite A1', A2'. split; [exact B|]. intros _. apply sq_pos.
    destruct Ds as (_ & Y). apply (dl_h _ _ _ _ _ Y). left. exact Hz.
Qed.

(** One step, and the test after it. *)
Lemma step_past rfuel (s s1 s2 : state) tret nl v : head prob ewt_set tout itask st s -> past s ->
  pre_step prob ewt_set s tret nl = Ret (inr s1) -> step prob rfuel s1 = Ret (s2, Ok v) ->
  past s2 /\ (itask = Normal -> 0 <= (tout - tl) * hh s2) /\ nst s2 <> 0%nat /\ tstop s2 = None /\ nrtfn s2 = 0%nat.
Proof.
  intros Hd (Js & Jd) Ep Es.
  pose proof (head_step _ _ _ _ _ _ _ _ _ _ _ _ Hd Ep Es) as P2.
  pose proof (step_ok_nst _ _ _ _ _ Es) as Hz.
  pose proof (pre_step_shell _ _ _ _ _ _ Ep) as (S1 & _).
  pose proof (pieces_shell _ _ _ _ _ (hd_pieces _ _ _ _ _ _ Hd) S1) as P1.
  destruct (pieces_D u rnd Hf prob ewt_set Hl c none_rep _ _ O Ds P1) as (O1 & D1).
  destruct (pieces_D u rnd Hf prob ewt_set Hl c none_rep _ _ O Ds P2) as (_ & D2).
  destruct (step_time_rnd u rnd Hf prob ewt_set Hl c none_rep rfuel s1 s2 v O1 D1 (shell_limited _ _ _ S1 (hd_lim _ _ _ _ _ _ Hd))
    (shell_fresh _ _ _ _ S1 (hd_fresh _ _ _ _ _ _ Hd)) Es) as (h & _ & B2 & B3 & B4 & _).
  destruct (shell_tnh prob _ _ S1) as (E1 & E2). rewrite E1 in B2. rewrite E2 in B3.
  assert (G : forall x, 0 <= x * hh s -> 0 <= x * hh s2).
  { clear - B3 B4. intros x Hx. destruct (Rtotal_order h 0) as [L|[L|L]]; [|subst h; lra|].
    - assert (hh s2 < 0) by nra. assert (hh s < 0) by nra. nra.
    - assert (0 < hh s2) by nra. assert (0 < hh s) by nra. nra. }
  assert (G2 : 0 <= (tn (nlp s2) - tn (nlp s)) * hh s2).
  { clear - B2 B4. destruct (Rtotal_order h 0) as [L|[L|L]]; [|subst h; lra|].
    - assert (hh s2 < 0) by nra. nra.
    - assert (0 < hh s2) by nra. nra. }
  split.
  { split; [pose proof (G _ Js); lra|]. intros C. specialize (Jd C). clear - B3 B4 Jd.
    destruct (Rtotal_order h 0) as [L|[L|L]]; [|subst h; lra|].
    - assert (hh s2 < 0) by nra. assert (hh s < 0) by nra. assert (hh st < 0) by nra. nra.
    - assert (0 < hh s2) by nra. assert (0 < hh s) by nra. assert (0 < hh st) by nra. nra. }
  split; [|split; [exact Hz|exact (D_plain _ D2)]].
  intros Ei. apply G. assert (Hd' : head prob ewt_set tout Normal st s) by (rewrite <- Ei; exact Hd).
  pose proof (head_tout_rnd u rnd Hf prob ewt_set Hl c none_rep st s tout O Ds Hd'). lra.
Qed.

Lemma loops_past rfuel tret (s0 s : state) nl : enters prob ewt_set rfuel st tout tret itask s0 ->
  loops prob ewt_set rfuel tout itask tret s0 s nl -> past s.
Proof.
  intros En Lo. pose proof (enters_head _ _ _ _ _ _ _ _ En) as Hd0.
  induction Lo as [|s nl s1 s2 v s' Lo IH Ep Es Ef].
  - exact (enters_past _ _ _ En).
  - destruct (head_loop _ _ _ _ _ _ _ _ _ _ Hd0 Lo) as (Hd & _).
    destruct (step_past _ _ _ _ _ _ _ Hd IH Ep Es) as (G1 & _ & _ & G3 & G4).
    apply post_step_cases in Ef. destruct Ef as [(C & _)|(x & _ & _ & X3 & X4)]; [destruct (C G4)|].
    rewrite (X3 G4) in X4. destruct (stop2_none _ _ _ _ _ _ _ _ G3 X4) as (A1 & A2 & _). unfold past. rewrite A1, A2. exact G1.
Qed.

Hypothesis Ha : asks_ahead st tl tout itask.

Lemma call_onward fuel rfuel tret st' t r : solve prob ewt_set fuel rfuel st tout tret itask = Ret (st', t, r) -> goes_on r ->
  0 <= (t - tl) * hh st' /\ 0 <= (tn (nlp st') - t) * hh st' /\ tretlast st' = t /\ (nst st' = 0%nat -> t = tn (nlp st')) /\
  (nst st <> 0%nat -> 0 < hh st' * hh st).
Proof.
  intros E Hgo. destruct (D_plain _ Ds) as (Pt & Pn). destruct Hb as (B0 & B1).
  destruct (solve_run _ _ _ _ _ _ _ _ _ _ _ E) as [A|(s0 & s & nl & m & Ent & Lo & F)].
  - unfold answers in A. destruct tset_same as (X1 & X2 & X3 & X4 & X5 & X6).
    destruct (solve_start_cases _ _ _ _ _ _ _ _ A) as [(_ & s & m & X & C)|[(_ & s & l & _ & _ & _ & _ & C)|(Hz & l & E1 & S1 & Q)]]; try discriminate.
    { exfalso. injection C as <- <- ->. cbn in Hgo. injection Hgo as ->. exact (first_call_err _ _ _ _ _ _ X eq_refl). }
    rewrite X3 in Hz. destruct (B1 Hz) as (Bt & B). specialize (Ha Hz). unfold get_current_setp in Ha.
    destruct (later_call_cases _ _ _ _ _ _ _ Q) as [(C & _)|[(C & _)|[(C & _)|(y & y' & t' & r' & _ & _ & Y3 & Y4 & X)]]];
      try (exfalso; apply C; exact (eq_trans X6 Pn)).
    rewrite (Y3 (eq_trans X6 Pn)) in Y4.
    destruct r' as [q|e].
    2: { exfalso. cbn in X. injection X as <- <- ->. cbn in Hgo. subst e. exact (stop1_err _ _ _ _ _ _ _ _ Y4 eq_refl). }
    destruct (stop1_none _ (on_lp (fun _ => l) (task_set st tout itask)) _ _ _ _ _ _ (eq_trans X5 Pt) Y4) as (A1 & A2 & A3 & [(A4 & _)|(A4 & A5 & A6)]).
    { subst q. discriminate. }
    assert (Ey : st' = y' /\ t = t') by (destruct q; cbn in X; try congruence; injection X as <- <- _; auto).
    destruct Ey as (-> & ->).
    assert (A1' : tn (nlp y') = tn (nlp st)) by (rewrite <- X1; exact A1).
    assert (A2' : hh y' = hh st) by (rewrite <- X2; exact A2).
    assert (A3' : nst y' = nst st) by (rewrite <- X3; exact A3).
    rewrite A1', A2', A3'. split; [|split; [|split; [exact A5|split; [intros C; destruct (Hz C)|intros _]]]].
    + destruct A6 as [(Ei & -> & _)|(_ & ->)]; [exact (Ha Ei)|].
      change (0 <= (tn (nlp (task_set st tout itask)) - tl) * hh st). rewrite X1. exact B.
    + destruct A6 as [(Ei & -> & [V|V])|(_ & ->)].
      * apply Reqb_true in V. assert (V' : tout = tl) by (rewrite V, <- Bt; exact X4). rewrite V'. exact B.
      * unfold reached_tout in V. apply (pos_rnd u rnd Hf) in V.
        change (0 <= (tn (nlp (task_set st tout itask)) - tout) * hh (task_set st tout itask)) in V. rewrite X1, X2 in V. exact V.
      * change (0 <= (tn (nlp st) - tn (nlp (task_set st tout itask))) * hh st). rewrite X1. lra.
    + apply sq_pos. destruct Ds as (_ & Y). apply (dl_h _ _ _ _ _ Y). left. exact Hz.
  - pose proof (loops_past _ _ _ _ _ Ent Lo) as Js. pose proof (enters_head _ _ _ _ _ _ _ _ Ent) as Hd0.
    destruct (head_loop _ _ _ _ _ _ _ _ _ _ Hd0 Lo) as (Hd & _).
    destruct F as [st' t r Ep|s1 s2 e st' t r Ep Es Ef|s1 s2 v st' t r Ep Es Ef Hr'].
    + assert (Q : st' = set_tretlast (tn (nlp s)) s /\ t = tn (nlp s)).
      { destruct (pre_step_cases _ _ _ _ _ _ Ep) as [(_ & X)|(_ & [(_ & _ & x & _ & _ & X)|(_ & [(_ & x & _ & _ & _ & X)|(_ & x & _ & _ & X)])])].
        - injection X as -> -> _. auto.
        - exfalso. injection X as _ _ ->. cbn in Hgo. congruence.
        - exfalso. injection X as _ _ ->. cbn in Hgo. congruence.
        - discriminate. }
      destruct Q as (-> & ->). destruct Js as (Js & Jd). split; [exact Js|]. split; [|split; [reflexivity|split; [reflexivity|exact Jd]]].
      change (0 <= (tn (nlp s) - tn (nlp s)) * hh s). lra.
    + exfalso. apply step_failed_shell in Ef. destruct Ef as (_ & Er & _).
      pose proof (pre_step_shell _ _ _ _ _ _ Ep) as (S1 & _).
      destruct (pieces_D u rnd Hf prob ewt_set Hl c none_rep st s O Ds (hd_pieces _ _ _ _ _ _ Hd)) as (Os & _).
      subst r. cbn in Hgo. apply (step_err _ _ _ _ _ Hl (shell_ord _ _ _ S1 Os) Es). congruence.
    + destruct (step_past _ _ _ _ _ _ _ Hd Js Ep Es) as ((G1 & Gd) & G2 & Gz & G3 & G4).
      apply post_step_cases in Ef. destruct Ef as [(C & _)|(x & _ & _ & X3 & X4)]; [destruct (C G4)|].
      rewrite (X3 G4) in X4. destruct (stop2_none _ _ _ _ _ _ _ _ G3 X4) as (A1 & A2 & A3 & [(A4 & _)|(_ & A5 & A6)]); [congruence|].
      rewrite A1, A2, A3. split; [|split; [|split; [exact A5|split; [intros C; destruct (Gz C)|exact Gd]]]].
      * destruct A6 as [(Ei & -> & _)|(_ & ->)]; [exact (G2 Ei)|exact G1].
      * destruct A6 as [(_ & -> & V)|(_ & ->)]; [|lra]. unfold reached_tout in V. exact (pos_rnd u rnd Hf _ _ V).
Qed.
End Call.

(** ** C89 *)
(** The states of a life, with the time returned last (at first the initial time),
    in which every call so far asked for an output time not behind the time returned
    last and returned a status, or the error that the maximal number of steps was made. *)
Inductive onward (yy0 yp0 : list R) : state -> R -> Prop :=
| on_new st0 : ida_new prob yy0 yp0 = Ret st0 -> onward yy0 yp0 (configure c st0) (g_t0 c)
| on_call st tl fuel rfuel tout tret itask st' t r : onward yy0 yp0 st tl -> asks_ahead st tl tout itask -> goes_on r ->
    solve prob ewt_set fuel rfuel st tout tret itask = Ret (st', t, r) -> onward yy0 yp0 st' t.

Lemma onward_behind yy0 yp0 (st : state) tl : onward yy0 yp0 st tl -> reach prob ewt_set c yy0 yp0 st /\ behind st tl.
Proof.
  induction 1 as [st0 E0|st tl fuel rfuel tout tret itask st' t r _ (Hr & IH) Ha Hgo E].
  - split; [constructor; exact E0|]. split; [reflexivity|]. intros C. exfalso. apply C.
    unfold ida_new in E0. destruct (_ && _); [|discriminate]. apply ret_inj in E0. subst st0. reflexivity.
  - split.
    { apply (reach_call _ _ _ _ _ fuel rfuel st (CallSolve tout tret itask) st' (ReplySolve t r) Hr). cbn [api_call]. rewrite E. reflexivity. }
    pose proof (reach_ord prob ewt_set Hl c yy0 yp0 st Hc Hr) as O.
    pose proof (reach_D u rnd Hg prob ewt_set Hl c Hc Ht0 none_rep yy0 yp0 st Hr) as Ds.
    destruct (call_onward st O Ds tout tl itask IH Ha fuel rfuel tret st' t r E Hgo) as (_ & A & B & C & _).
    split; [exact C|]. intros _. auto.
Qed.

(** The next call: the time it returns is not behind the one returned before, and not
    ahead of the internal time, so the output is never extrapolated; the direction is that
    of the calls before. *)
Theorem C89_times_go_on yy0 yp0 (st : state) tl fuel rfuel tout tret itask st' t r :
  onward yy0 yp0 st tl -> asks_ahead st tl tout itask ->
  solve prob ewt_set fuel rfuel st tout tret itask = Ret (st', t, r) -> goes_on r ->
  0 <= (t - tl) * get_current_setp st' /\ 0 <= (get_current_time st' - t) * get_current_setp st' /\
  (get_num_steps st <> 0%nat -> 0 < get_current_setp st' * get_current_setp st).
Proof.
  intros Hw Ha E Hgo. destruct (onward_behind _ _ _ _ Hw) as (Hr & Hb).
  pose proof (reach_ord prob ewt_set Hl c yy0 yp0 st Hc Hr) as O.
  pose proof (reach_D u rnd Hg prob ewt_set Hl c Hc Ht0 none_rep yy0 yp0 st Hr) as Ds.
  destruct (call_onward st O Ds tout tl itask Hb Ha fuel rfuel tret st' t r E Hgo) as (A & B & _ & _ & C). auto.
Qed.
End Rnd.

Print Assumptions C89_times_go_on.

(** ** The hypotheses can be met *)
Require Import Verif.Script Verif.ExampleR Verif.PropRoots Verif.ExampleRoot.
Open Scope R_scope.

Local Instance NLS_O : NLSolver R (script R) := ScriptNLS [].

(** The second call of a life without root functions; an output time one step ahead
    would do in normal mode. *)
Example C89_times_go_on_hypotheses_met : exists (st : ida R (list nat) (script R)) tl st' t, let rnd := fun x : R => x in
  let c := configR None (/ 4) in
  f64_like (/ 9007199254740992) rnd /\ nls_lawful (T := R) (NSt := script R) /\ config_ok c /\
  rnd (g_t0 c) = g_t0 c /\ g_tstop c = None /\ num_roots scalarR = 0%nat /\
  @onward rnd (list nat) (script R) _ _ scalarR ewtR c [0] [1] st tl /\ get_num_steps st = 1%nat /\
  asks_ahead st tl 1 OneStep /\ asks_ahead st tl (tl + get_current_setp st) Normal /\
  @solve R (list nat) (script R) (ScalarRnd rnd) _ _ scalarR ewtR 600 100 st 1 0 OneStep = Ret (st', t, Ok Success) /\
  get_num_steps st' = 2%nat.
Proof.
  assert (H4 : 0 <= / 4) by lra. assert (HN : forall x : R, None = Some x -> 0 < x) by discriminate.
  destruct (new_ready [] None (/ 4) (or_introl (or_introl eq_refl))) as (a & Ra & (a0 & Ea & ->) & Za).
  destruct (one_call [] None (/ 4) H4 HN _ Ra) as (st & tl & r & E1 & Hr1 & R1 & N1 & L1 & _ & T1 & S1 & _).
  assert (Q1 : r = Success).
  { destruct Hr1 as [|C]; [assumption|]. subst r. exfalso.
    eapply (C68_no_stop_time scalarR ewtR (script_lawful []) (configR None (/ 4)) [0] [1]); [apply configR_ok; assumption|reflexivity|apply Ra|exact E1|reflexivity]. }
  subst r. specialize (S1 eq_refl).
  assert (Rst : ready [] None (/ 4) st).
  { split; [exact R1|]. split; [rewrite L1|right; split; [reflexivity|split; [lia|congruence]]].
    change (nls (configure (configR None (/ 4)) a0)) with (nls a0).
    destruct (new_exists []) as (x & Ex & Hx & _). rewrite Ea in Ex. injection Ex as <-. rewrite Hx. left. left. reflexivity. }
  destruct (one_call [] None (/ 4) H4 HN _ Rst) as (st' & t & r & E2 & Hr2 & R2 & N2 & _).
  assert (Q2 : r = Success).
  { destruct Hr2 as [|C]; [assumption|]. subst r. exfalso.
    eapply (C68_no_stop_time scalarR ewtR (script_lawful []) (configR None (/ 4)) [0] [1]); [apply configR_ok; assumption|reflexivity|exact R1|exact E2|reflexivity]. }
  subst r. exists st, tl, st', t. cbv zeta.
  split; [exact id_f64_like|]. split; [exact (script_lawful [])|]. split; [apply configR_ok; assumption|]. do 3 (split; [reflexivity|]).
  split.
  { eapply (on_call (fun x => x)). 4: exact E1. 3: exact I.
    - apply on_new. exact Ea.
    - intros _ C. discriminate. }
  unfold get_num_steps. split; [lia|]. split; [intros _ C; discriminate|]. split.
  - intros _ _. unfold get_current_setp. replace (tl + hh st - tl) with (hh st) by ring. nra.
  - split; [exact E2|lia].
Qed.
