(** * PropRetry: repeating a call that failed before any step was completed
      (C19, src/impl_solve.rs) *)
Require Import List Arith Bool Lia Floats.
Import ListNotations.
Require Import Verif.Base Verif.Scalar Verif.ScalarF Verif.Norms Verif.Newton Verif.NewtonSpec Verif.IdaState
  Verif.IdaNls Verif.IdaCore Verif.IdaRoots Verif.IdaSolve Verif.IdaIo Verif.BaseFacts Verif.NewtonFacts
  Verif.IdaFacts Verif.IdaLoops Verif.IdaStep Verif.IdaSpec Verif.IdaShell Verif.IdaReach Verif.IdaInv
  Verif.IdaCount Verif.IdaLife Verif.IdaTrace Verif.IdaSafe Verif.IdaInterp Verif.IdaCall
  Verif.Script Verif.Witness Verif.PropSafe Verif.PropSolve Verif.PropStop Verif.PropRootsBad.
Set Warnings "-inexact-float".
Open Scope nat_scope.

Section AnyScalar.
Context {T LSt NSt : Type} `{Scalar T} `{LSolver T LSt} `{NLSolver T NSt}.
Variable prob : problem T.
Variable ewt_set : list T -> list T.
Notation n := (model_size prob).
Notation state := (ida T LSt NSt).
Notation tr st := (trace (lp (nlp st))).

(** The step size left behind by a rejected call is not used. *)
Lemma first_step_hh (st : state) h tout : too_close (tn (nlp st)) tout = false ->
  first_step (set_hh h st) tout = first_step st tout.
Proof.
  unfold too_close. intros Hc. apply orb_false_iff in Hc. destruct Hc as (C1 & C2). unfold first_step. cbv zeta.
  change (tn (nlp (set_hh h st))) with (tn (nlp st)). rewrite C1, C2. reflexivity.
Qed.

Lemma first_call_left (st : state) h tout : length (phi st) = 6 -> too_close (tn (nlp st)) tout = false ->
  first_call prob ewt_set (set_hh h (weighed ewt_set st)) tout = first_call prob ewt_set st tout.
Proof.
  intros Hl Hc. unfold first_call. rewrite (setup_eq ewt_set st Hl).
  change (setup_done (set_hh h (weighed ewt_set st))) with true. cbv iota. cbn [bind].
  rewrite first_step_hh by exact Hc. reflexivity.
Qed.

Lemma rejected_state (st : state) tout s m : length (phi st) = 6 -> first_call prob ewt_set st tout = Ret (inl (s, m)) ->
  exists h, s = set_hh h (weighed ewt_set st).
Proof.
  intros Hl E. unfold first_call in E. rewrite setup_eq in E by exact Hl. cbn [bind] in E.
  apply bind_ret_inv in E. destruct E as (r & Er & E). cbv beta in E. destruct r as [(s1 & m1)|s1].
  - apply ret_inj in E. injection E as <- <-. exact (first_step_frame _ _ _ Er).
  - exfalso. cbv zeta in E. do 3 (apply bind_ret_inv in E; destruct E as (? & _ & E); cbv beta in E). discriminate.
Qed.

(** Rejection of the arguments of a call. *)
Definition bad_arguments (m : illegal) : Prop := m = ToutTooClose \/ m = StepNotTowardsTout \/ m = TstopBehind.

(** A call rejected for its arguments before any step was completed leaves an
    object on which every later call does what it would have done without the
    rejected one.  Missing from C19: failures after the first-call block, where
    it is false (C19_refuted, C19_accuracy_refuted). *)
Theorem C19_rejected_call_partial : @nls_lawful T NSt _ -> forall c yy0 yp0 (st st1 : state) fuel rfuel tout tret itask t m,
  config_ok c -> reach prob ewt_set c yy0 yp0 st -> steps (tr st) = [] ->
  solve prob ewt_set fuel rfuel st tout tret itask = Ret (st1, t, Err (EIda (IllegalIn m))) ->
  bad_arguments m -> tr st1 = tr st ->
  forall fuel' rfuel' tout2 tret2 itask2, itask = OneStep \/ itask2 = Normal ->
  too_close (get_current_time st) tout2 = false ->
  solve prob ewt_set fuel' rfuel' st1 tout2 tret2 itask2 = solve prob ewt_set fuel' rfuel' st tout2 tret2 itask2.
Proof.
  intros Hl c yy0 yp0 st st1 fuel rfuel tout tret itask t m Hc Hr Hs E Hm Ht fuel' rfuel' tout2 tret2 itask2 Hi Hf.
  pose proof (reach_ord prob ewt_set Hl c yy0 yp0 st Hc Hr) as O. pose proof O as ((L6 & _) & _).
  pose proof (reach_tlink prob ewt_set Hl c Hc yy0 yp0 st Hr) as Lk.
  assert (Hz : nst st = 0) by (rewrite <- (tl_n _ _ _ _ Lk), Hs; reflexivity). clear Lk.
  assert (Z1 : nst (task_set st tout itask) = 0) by (destruct itask; exact Hz).
  assert (R : exists h, st1 = set_hh h (weighed ewt_set (task_set st tout itask))).
  { apply solve_run in E. destruct E as [E|(s0 & s & nl & k & En & Lo & Ed)].
    - unfold answers in E. apply solve_start_cases in E. destruct E as [E|[E|E]].
      + destruct E as (_ & s & m1 & E & Ex). injection Ex as -> -> ->. eapply rejected_state; [|exact E]. destruct itask; exact L6.
      + destruct E as (_ & s & l & _ & _ & _ & _ & Ex). discriminate.
      + destruct E as (N & _). contradiction.
    - exfalso.
      pose proof (run_head _ _ _ _ _ _ _ _ _ _ En Lo) as Hd.
      assert (Os : ordok s) by exact (pieces_ord prob ewt_set Hl _ _ O (hd_pieces _ _ _ _ _ _ Hd)).
      destruct (pieces_ext prob ewt_set Hl _ _ O (hd_pieces _ _ _ _ _ _ Hd)) as (_ & ev0 & X0 & _).
      assert (Sl : forall x y : state, shell prob x y -> length (tr x) <= length (tr y)).
      { intros x y Sh. destruct (shell_trace prob _ _ Sh) as (ev & -> & _). rewrite app_length. lia. }
      assert (Ll : forall x y : state, lims x y -> length (tr x) <= length (tr y)).
      { intros x y L. destruct (lims_fields _ _ L) as (h & ->). reflexivity. }
      assert (Hst : forall s1 s2 x, pre_step prob ewt_set s tret nl = Ret (inr s1) -> step prob rfuel s1 = Ret (s2, x) ->
        length (tr st) < length (tr s2)).
      { intros s1 s2 x Ep Es. apply pre_step_shell in Ep. destruct Ep as (Sp & _).
        assert (O1 : ordok s1) by exact (pieces_ord prob ewt_set Hl _ _ Os (piece1 _ _ _ _ (p_shell _ _ _ _ Sp))).
        destruct (step_first prob Hl _ _ _ _ O1 Es) as (new & Ex). pose proof (Sl _ _ Sp) as G.
        rewrite Ex, app_length. cbn [length]. rewrite X0, app_length in G. lia. }
      assert (F : ~ length (tr st) < length (tr st1)) by (rewrite Ht; lia). apply F. clear F Ht.
      remember (Err (EIda (IllegalIn m))) as r eqn:Er.
      destruct Ed as [st1 t r Ep|s1 s2 e st1 t r Ep Es Ef|s1 s2 u st1 t r Ep Es Ef _].
      + exfalso. apply pre_step_shell in Ep. cbn iota in Ep. destruct Ep as (_ & _ & D).
        destruct D as [(D & _)|(_ & [D|D])]; rewrite D in Er; injection Er; intros; subst; destruct Hm as [|[|]]; discriminate.
      + apply step_failed_shell in Ef. destruct Ef as (Sf & _). apply Sl in Sf. pose proof (Hst _ _ _ Ep Es). lia.
      + pose proof (Hst _ _ _ Ep Es) as G. destruct (post_step_shell _ _ _ _ _ _ _ _ _ Ef) as (x & X1 & [(_ & X2 & _)|(_ & [X2|(y & X2 & X3)])]);
          apply Sl in X1; try apply Ll in X2; try apply Sl in X2; try apply Sl in X3; lia. }
  destruct R as (h & ->). unfold solve. cbv zeta.
  set (x := set_hh h (weighed ewt_set (task_set st tout itask))).
  change (set_taskc itask2 match itask2 with Normal => set_toutc tout2 x | OneStep => x end) with (task_set x tout2 itask2).
  change (set_taskc itask2 match itask2 with Normal => set_toutc tout2 st | OneStep => st end) with (task_set st tout2 itask2).
  assert (W : nst (task_set x tout2 itask2) = 0) by (destruct itask2, itask; exact Hz).
  assert (W' : nst (task_set st tout2 itask2) = 0) by (destruct itask2; exact Hz).
  rewrite W, W'. cbn [Nat.eqb].
  assert (Ex : task_set x tout2 itask2 = set_hh h (weighed ewt_set (task_set st tout2 itask2))).
  { unfold x. destruct Hi as [-> | ->]; [destruct itask2; reflexivity|destruct itask; reflexivity]. }
  rewrite Ex, first_call_left; [reflexivity| |]; destruct itask2; assumption.
Qed.

(** A first call that ends with TooMuchAccuracy before attempting a step leaves
    the second row of the history, the derivative the next call starts from,
    multiplied by the step size. *)
Theorem C19_accuracy_scales : @nls_lawful T NSt _ -> forall c yy0 yp0 (st st1 : state) fuel rfuel tout tret itask t te,
  config_ok c -> reach prob ewt_set c yy0 yp0 st -> steps (tr st) = [] ->
  solve prob ewt_set fuel rfuel st tout tret itask = Ret (st1, t, Err (EIda (TooMuchAccuracy te))) ->
  steps (tr st1) = [] ->
  phi st1 = upd (phi st) 1 (vscale n (get_current_setp st1) (row (phi st) 1)).
Proof.
  intros Hl c yy0 yp0 st st1 fuel rfuel tout tret itask t te Hc Hr Hs E Hs1.
  assert (Hr' : reach prob ewt_set c yy0 yp0 st1) by (eapply reach_next; eassumption).
  pose proof (reach_ord prob ewt_set Hl c yy0 yp0 st Hc Hr) as O. pose proof O as ((L6 & _) & _).
  assert (Hz : nst st = 0) by (rewrite <- (tl_n _ _ _ _ (reach_tlink prob ewt_set Hl c Hc yy0 yp0 st Hr)), Hs; reflexivity).
  assert (Hz1 : nst st1 = 0) by (rewrite <- (tl_n _ _ _ _ (reach_tlink prob ewt_set Hl c Hc yy0 yp0 st1 Hr')), Hs1; reflexivity).
  assert (Z1 : nst (task_set st tout itask) = 0) by (destruct itask; exact Hz).
  apply solve_run in E. destruct E as [A|(s0 & s & nl & m & En & Lo & F)].
  - exfalso. unfold answers in A. apply solve_start_cases in A. destruct A as [A|[A|A]].
    + destruct A as (_ & s & m & _ & Q). discriminate.
    + destruct A as (_ & s & l & _ & _ & _ & _ & Q). discriminate.
    + destruct A as (N & _). contradiction.
  - assert (Hd : head prob ewt_set tout itask st s0) by exact (enters_head _ _ _ _ _ _ _ _ En).
    pose proof (ends_nst prob ewt_set Hl _ _ _ _ _ _ _ _ _ _ _ _ O Hd Lo F) as (N1 & _).
    assert (nl = 0) by lia. subst nl.
    assert (Es : s = s0) by (inversion Lo; [reflexivity|lia]). subst s. clear Lo.
    unfold enters in En. apply solve_start_cases in En. destruct En as [A|[A|A]].
    + destruct A as (_ & s & m1 & _ & Q). discriminate.
    + destruct A as (_ & s & l & E1 & _ & _ & Sh & Q). injection Q as ->.
      pose proof (first_call_frame _ _ _ _ _ E1) as Fr. cbv zeta iota in Fr. destruct Fr as (_ & _ & _ & _ & Fp & _).
      assert (Lt : phi (task_set st tout itask) = phi st) by (destruct itask; reflexivity). rewrite Lt in Fp.
      assert (Q : shell prob s st1).
      { eapply shell_trans; [exact Sh|]. remember (Err (EIda (TooMuchAccuracy te))) as r eqn:Er.
        destruct F as [st' t r Ep|s1 s2 e st' t r Ep Es Ef|s1 s2 u st' t r Ep Es Ef Hr2].
        - apply pre_step_shell in Ep. exact (proj1 Ep).
        - exfalso. apply step_failed_shell in Ef. destruct Ef as (_ & Q & _).
          assert (e = EIda (TooMuchAccuracy te)) by congruence. subst e.
          pose proof (pieces_ord prob ewt_set Hl _ _ O (hd_pieces _ _ _ _ _ _ Hd)) as Oa.
          pose proof (pre_step_shell _ _ _ _ _ _ Ep) as (P3 & _).
          exact (step_err_kinds _ _ _ _ _ Hl (shell_ord _ _ _ P3 Oa) Es _ eq_refl).
        - exfalso. apply post_step_cases in Ef. destruct Ef as [(_ & x & _ & _ & _ & _ & X)|(x & X1 & X2 & X3 & X4)]; [congruence|].
          subst r. exact (stop2_no_err _ _ _ _ _ _ _ _ X4). }
      pose proof (core_fields _ _ (sh_core _ _ _ Q)) as Cf.
      assert (C1 : phi st1 = phi s) by tauto. assert (C2 : hh st1 = hh s) by tauto.
      unfold get_current_setp. rewrite C1, C2. apply Fp. lia.
    + destruct A as (N & _). contradiction.
Qed.
End AnyScalar.

(** ** Executions on binary64 with the solvers of the library *)
Open Scope float_scope.

(** y' = 1e12 with the inconsistent y'(0) = 0. *)
Definition kick : problem float :=
  mkproblem 1 1 (fun _ y yp _ => vget yp 0 - 1e12) (fun _ cj _ _ _ _ _ => cj) (fun _ _ _ _ => 1).

Lemma kick_fails : exists y, after kick decay_ewt (default_config kick) [1] [0] [CallSolve 1 0 OneStep; CallSolve 1e-14 0 Normal]
  (fun st rs => (rs, get_yy st)) = Some ([ReplySolve 0 (Err EFmt); ReplySolve 1e-14 (Ok Success)], [y]) /\ (y <? 0.5) = true.
Proof. eexists. split; vm_compute; reflexivity. Qed.

Lemma kick_first : after kick decay_ewt (default_config kick) [1] [0] [CallSolve 1 0 OneStep]
  (fun st rs => (rs, length (steps (trace (lp (nlp st)))))) = Some ([ReplySolve 0 (Err EFmt)], 0%nat).
Proof. vm_compute. reflexivity. Qed.

Lemma kick_fresh : exists y, after kick decay_ewt (default_config kick) [1] [0] [CallSolve 1e-14 0 Normal]
  (fun st rs => (rs, get_yy st)) = Some ([ReplySolve 1e-14 (Ok Success)], [y]) /\ (1 <? y) = true.
Proof. eexists. split; vm_compute; reflexivity. Qed.

(** C19 fails: on a fresh object the call to t = 1e-14 returns a solution above
    the initial value 1; after a call that failed without completing a step the
    same call returns one below 0.5. *)
Theorem C19_refuted : exists (prob : problem float) ewt_set yy0 yp0 (st0 st1 sA sB : fstate) t1 e ya yb,
  ida_new prob yy0 yp0 = Ret st0 /\
  solve prob ewt_set 600 100 st0 1 0 OneStep = Ret (st1, t1, Err e) /\ steps (trace (lp (nlp st1))) = [] /\
  solve prob ewt_set 600 100 st0 1e-14 0 Normal = Ret (sA, 1e-14, Ok Success) /\ get_yy sA = [ya] /\ (1 <? ya) = true /\
  solve prob ewt_set 600 100 st1 1e-14 0 Normal = Ret (sB, 1e-14, Ok Success) /\ get_yy sB = [yb] /\ (yb <? 0.5) = true.
Proof.
  destruct kick_fails as (yb & EB & HB). destruct kick_fresh as (ya & EA & HA). pose proof kick_first as E1.
  apply after_reach in EA, EB, E1.
  destruct EA as (a0 & a1 & ra & NA & RA & _ & VA). destruct EB as (b0 & b1 & rb & NB & RB & _ & VB).
  destruct E1 as (c0 & c1 & rc & NC & RC & _ & VC).
  assert (a0 = c0 /\ b0 = c0) as (-> & ->) by (split; congruence). clear NA NB.
  injection VA as -> VA. injection VB as -> VB. injection VC as -> VC.
  rewrite (configure_default kick [1] [0] c0 NC) in RA, RB, RC.
  apply run_one in RA. apply run_one in RC. apply run_two in RB. destruct RB as (c2 & RB1 & RB2).
  assert (c2 = c1) by congruence. subst c2.
  exists kick, decay_ewt, [1], [0], c0, c1, a1, b1, 0, EFmt, ya, yb.
  repeat split; try assumption. destruct (steps _); [reflexivity|discriminate].
Qed.

(** The same for a first call that ends with TooMuchAccuracy: the next call
    shows the root function another derivative at the initial time. *)
Lemma strict_roots : exists yp', after rising strict_ewt (decay_conf rising) [1] [-1] [CallSolve 1 0 Normal; CallSolve 1 0 Normal]
  (fun st rs => (rs, trace (lp (nlp st)))) =
  Some ([ReplySolve 0 (Err (EIda (TooMuchAccuracy 0))); ReplySolve 0 (Err (EIda (TooMuchAccuracy 0)))],
        [CRoot 0 [1] [yp']; CRoot 0 [1] [-1]]) /\ (-1e-10 <? yp') = true.
Proof. eexists. split; vm_compute; reflexivity. Qed.

Theorem C19_accuracy_refuted : exists (prob : problem float) ewt_set c yy0 yp0 (st0 st1 st2 : fstate) t1 t2 e1 e2 yp',
  ida_new prob yy0 yp0 = Ret st0 /\
  solve prob ewt_set 600 100 (configure c st0) 1 0 Normal = Ret (st1, t1, Err e1) /\
  solve prob ewt_set 600 100 st1 1 0 Normal = Ret (st2, t2, Err e2) /\
  trace (lp (nlp st2)) = [CRoot (g_t0 c) yy0 yp'; CRoot (g_t0 c) yy0 yp0] /\ yp' <> yp0.
Proof.
  destruct strict_roots as (yp' & E & H). apply after_reach in E. destruct E as (s0 & s2 & rs & N & R & _ & V).
  injection V as -> V. apply run_two in R. destruct R as (s1 & R1 & R2).
  exists rising, strict_ewt, (decay_conf rising), [1], [-1], s0, s1, s2. do 4 eexists. exists [yp'].
  split; [exact N|]. split; [exact R1|]. split; [exact R2|]. split; [exact V|].
  intros C. injection C as ->. discriminate H.
Qed.

Print Assumptions C19_rejected_call_partial.
Print Assumptions C19_accuracy_scales.
Print Assumptions C19_refuted.
Print Assumptions C19_accuracy_refuted.

(** ** Concrete cases *)
Lemma strict_first : after rising strict_ewt (decay_conf rising) [1] [-1] [CallSolve 1 0 Normal]
  (fun st rs => (rs, length (steps (trace (lp (nlp st)))), phi st)) =
  Some ([ReplySolve 0 (Err (EIda (TooMuchAccuracy 0)))], 0%nat, [[1]; [-5.05e-19]; [0]; [0]; [0]; [0]]).
Proof. vm_compute. reflexivity. Qed.

Definition behind := mkconfig 5 500 10 10 0 0 0.33 0 (Some (-1)) false [false] [0%nat].

Lemma behind_first : after rising decay_ewt behind [1] [-1] [CallSolve 1 0 OneStep]
  (fun st rs => (rs, length (steps (trace (lp (nlp st)))), length (trace (lp (nlp st))))) =
  Some ([ReplySolve 0 (Err (EIda (IllegalIn TstopBehind)))], 0%nat, 0%nat).
Proof. vm_compute. reflexivity. Qed.

Example C19_hypotheses_met :
  @nls_lawful float (newton float) newton20 /\ config_ok behind /\ config_ok (decay_conf rising) /\
  (exists st st1 : fstate, reach rising decay_ewt behind [1] [-1] st /\ steps (trace (lp (nlp st))) = [] /\
     solve rising decay_ewt 600 100 st 1 0 OneStep = Ret (st1, 0, Err (EIda (IllegalIn TstopBehind))) /\
     bad_arguments TstopBehind /\ trace (lp (nlp st1)) = trace (lp (nlp st)) /\
     too_close (get_current_time st) 2 = false) /\
  (exists st st1 : fstate, reach rising strict_ewt (decay_conf rising) [1] [-1] st /\ steps (trace (lp (nlp st))) = [] /\
     solve rising strict_ewt 600 100 st 1 0 Normal = Ret (st1, 0, Err (EIda (TooMuchAccuracy 0))) /\
     steps (trace (lp (nlp st1))) = []).
Proof.
  split; [exact (newton_lawful 20)|]. split; [unfold config_ok; cbn; lia|]. split; [unfold config_ok; cbn; lia|]. split.
  - pose proof behind_first as E. apply after_reach in E. destruct E as (s0 & s1 & rs & N & R & _ & V).
    injection V as -> _ V2. apply run_one in R.
    pose proof (new_fields rising [1] [-1] s0 N) as F. assert (Tr : trace (lp (nlp s0)) = []) by tauto.
    exists (configure behind s0), s1. split; [constructor; exact N|].
    change (trace (lp (nlp (configure behind s0)))) with (trace (lp (nlp s0))). rewrite Tr. split; [reflexivity|].
    split; [exact R|]. split; [right; right; reflexivity|].
    split; [destruct (trace (lp (nlp s1))); [reflexivity|discriminate]|vm_compute; reflexivity].
  - pose proof strict_first as E. apply after_reach in E. destruct E as (s0 & s1 & rs & N & R & _ & V).
    injection V as -> V2 _. apply run_one in R.
    pose proof (new_fields rising [1] [-1] s0 N) as F. assert (Tr : trace (lp (nlp s0)) = []) by tauto.
    exists (configure (decay_conf rising) s0), s1. split; [constructor; exact N|].
    change (trace (lp (nlp (configure (decay_conf rising) s0)))) with (trace (lp (nlp s0))). rewrite Tr.
    split; [reflexivity|]. split; [exact R|]. destruct (steps _); [reflexivity|discriminate].
Qed.
