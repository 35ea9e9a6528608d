(** * PropFail: what follows a failure of the nonlinear solver (C39)
    Any scalar. *)
Require Import List Arith Bool Lia Floats.
Import ListNotations.
Require Import Verif.Base Verif.Scalar Verif.ScalarF Verif.Dense Verif.Norms Verif.Newton Verif.NewtonSpec Verif.IdaState
  Verif.IdaNls Verif.IdaCore Verif.IdaRoots Verif.IdaSolve Verif.IdaIo Verif.BaseFacts Verif.NewtonFacts
  Verif.IdaFacts Verif.IdaLoops Verif.IdaStep Verif.IdaSpec Verif.IdaShell Verif.IdaReach Verif.IdaInv
  Verif.IdaCount Verif.IdaLife Verif.IdaTrace Verif.IdaAccept Verif.IdaSafe Verif.IdaInterp Verif.IdaCall
  Verif.Script Verif.Witness.
Set Warnings "-inexact-float".
Open Scope nat_scope.

Section Fail.
Context {T LSt NSt : Type} `{Scalar T} `{LSolver T LSt} `{NLSolver T NSt}.
Variable prob : problem T.
Variable ewt_set : list T -> list T.
Hypothesis Hl : @nls_lawful T NSt _.
Notation state := (ida T LSt NSt).

Lemma shell_ncfn (a b : state) : shell prob a b -> ncfn b = ncfn a.
Proof. intros S. pose proof (sh_core _ _ _ S) as C. unfold core in C. pinj. congruence. Qed.

Lemma lims_ncfn (a b : state) : lims a b -> ncfn b = ncfn a.
Proof. intros L. apply lims_fields in L. destruct L as (h & ->). reflexivity. Qed.

Lemma tries_ncfn t0 (st0 sta : state) nef : tries prob t0 st0 sta nef -> ncfn sta = ncfn st0.
Proof.
  induction 1 as [|st nef st1 ck ek ek1 st' Ht IH Et Htr Hn Hrt]; [reflexivity|].
  pose proof (rt_keep _ _ _ _ _ Hrt) as U. pose proof (tr_cnt _ _ _ _ _ Htr) as V. pinj. congruence.
Qed.

(** A step reports a nonlinear failure exactly when it counts one. *)
Lemma step_ncfn fuel (st st' : state) r : ordok st -> step prob fuel st = Ret (st', r) ->
  (ncfn st' = ncfn st /\ forall m, r <> Err (ENls m)) \/ (ncfn st' = ncfn st + 1 /\ exists m, r = Err (ENls m)).
Proof.
  intros O E. apply (step_spec prob Hl) in E; [|exact O].
  destruct E as (sta & nef & st1 & ck & ek & ek1 & r1 & Ht & Et & Htr & Hc).
  apply tries_ncfn in Ht. pose proof (tr_cnt _ _ _ _ _ Htr) as V.
  assert (I : ncfn (st_init st) = ncfn st) by (unfold st_init; cbv zeta; destruct (_ =? _); reflexivity).
  assert (V1 : ncfn st1 = ncfn sta) by (pinj; congruence).
  destruct Hc as [(-> & -> & st2 & Hcp & ->)|(e & -> & Hg & [(_ & _ & _ & -> & _ & Hf)|((m & ->) & -> & _ & Hf)])].
  - left. split; [|discriminate]. change (ncfn (st_commit prob ck st2)) with (ncfn st2).
    pose proof (cp_keep _ _ _ Hcp) as U. pinj. congruence.
  - left. split; [congruence|discriminate].
  - right. split; [lia|eauto].
Qed.

Lemma start_ncfn rfuel (st : state) tout tret itask s0 :
  enters prob ewt_set rfuel st tout tret itask s0 -> ncfn s0 = ncfn st.
Proof.
  unfold enters. intros E. pose proof (task_set_shell prob st tout itask) as S0. rewrite <- (shell_ncfn _ _ S0).
  destruct (solve_start_cases _ _ _ _ _ _ _ _ E) as [(Hz & s & m & _ & Q)|[(Hz & s & l & E1 & E2 & E3 & E4 & Q)|(Hz & l & E1 & S1 & Q)]].
  - discriminate.
  - injection Q as ->. pose proof (first_call_frame _ _ _ _ _ E1) as (Hk & _). apply fkeep_fields in Hk. tauto.
  - apply later_call_shell in Q. destruct Q as (_ & s1 & S2 & _ & L1 & A).
    rewrite (lims_ncfn _ _ L1), (shell_ncfn _ _ S2), (shell_ncfn _ _ S1). reflexivity.
Qed.

Lemma answers_ncfn rfuel (st st' : state) tout tret itask t r :
  answers prob ewt_set rfuel st tout tret itask (st', t, r) -> ncfn st' = ncfn st.
Proof.
  unfold answers. intros E. pose proof (task_set_shell prob st tout itask) as S0. rewrite <- (shell_ncfn _ _ S0).
  destruct (solve_start_cases _ _ _ _ _ _ _ _ E) as [(Hz & s & m & F & Q)|[(Hz & s & l & E1 & E2 & E3 & E4 & Q)|(Hz & l & E1 & S1 & Q)]].
  - injection Q as -> _ _. pose proof (first_call_frame _ _ _ _ _ F) as (Hk & _). apply fkeep_fields in Hk. tauto.
  - discriminate.
  - apply later_call_shell in Q. destruct Q as (_ & S2). rewrite (shell_ncfn _ _ S2), (shell_ncfn _ _ S1). reflexivity.
Qed.

Lemma loops_ncfn rfuel (st s0 s : state) tout itask tret nl : ordok st ->
  head prob ewt_set tout itask st s0 -> loops prob ewt_set rfuel tout itask tret s0 s nl -> ncfn s = ncfn s0.
Proof.
  intros O H0'. induction 1 as [|s nl s1 s2 u s' L IH Ep Es Ef]; [reflexivity|].
  destruct (head_loop _ _ _ _ _ _ _ _ _ _ H0' L) as (Hd & _).
  pose proof (pieces_ord _ _ Hl _ _ O (hd_pieces _ _ _ _ _ _ Hd)) as Os.
  apply pre_step_shell in Ep. destruct Ep as (S1 & _).
  pose proof (shell_ord _ _ _ S1 Os) as O1.
  destruct (step_ncfn _ _ _ _ O1 Es) as [(N1 & _)|(_ & m & D)]; [|discriminate].
  apply post_step_shell in Ef. destruct Ef as (s3 & S3 & [(_ & L3 & _)|(A & _)]); [|congruence].
  rewrite (lims_ncfn _ _ L3), (shell_ncfn _ _ S3), N1, (shell_ncfn _ _ S1). exact IH.
Qed.

(** In every life: a call counts at most one failure of the nonlinear solver;
    if it counts one, it returns that failure.  So no failure is ever followed
    by another attempt in the same call, whatever [maxncf] says. *)
Theorem C39_failure_ends_the_call c yy0 yp0 (st st' : state) fuel rfuel tout tret itask t r :
  config_ok c -> reach prob ewt_set c yy0 yp0 st ->
  solve prob ewt_set fuel rfuel st tout tret itask = Ret (st', t, r) ->
  get_num_nonlin_solv_conv_fails st' = get_num_nonlin_solv_conv_fails st \/
  (get_num_nonlin_solv_conv_fails st' = get_num_nonlin_solv_conv_fails st + 1 /\ exists m, r = Err (ENls m)).
Proof.
  intros Hc Hr E. unfold get_num_nonlin_solv_conv_fails. pose proof (reach_ord prob ewt_set Hl c yy0 yp0 st Hc Hr) as O.
  destruct (solve_run _ _ _ _ _ _ _ _ _ _ _ E) as [A|(s0 & s & nl & m & En & L & F)].
  - left. exact (answers_ncfn _ _ _ _ _ _ _ _ A).
  - pose proof (enters_head _ _ _ _ _ _ _ _ En) as Hd0.
    pose proof (loops_ncfn _ _ _ _ _ _ _ _ O Hd0 L) as N. rewrite (start_ncfn _ _ _ _ _ _ En) in N.
    destruct (head_loop _ _ _ _ _ _ _ _ _ _ Hd0 L) as (Hd & _).
    pose proof (pieces_ord _ _ Hl _ _ O (hd_pieces _ _ _ _ _ _ Hd)) as Os.
    destruct F as [st' t r Ep|s1 s2 e st' t r Ep Es Ef|s1 s2 u st' t r Ep Es Ef Hr'];
      pose proof (pre_step_shell _ _ _ _ _ _ Ep) as (S1 & _); pose proof (shell_ncfn _ _ S1) as N1.
    + left. congruence.
    + pose proof (shell_ord _ _ _ S1 Os) as O1. apply step_failed_shell in Ef. destruct Ef as (S2 & -> & _).
      pose proof (shell_ncfn _ _ S2) as N2.
      destruct (step_ncfn _ _ _ _ O1 Es) as [(N3 & _)|(N3 & k & D)]; [left; congruence|].
      injection D as ->. right. split; [congruence|eauto].
    + pose proof (shell_ord _ _ _ S1 Os) as O1.
      destruct (step_ncfn _ _ _ _ O1 Es) as [(N3 & _)|(N3 & k & D)]; [|discriminate]. left.
      apply post_step_shell in Ef. destruct Ef as (s3 & S3 & [(A & _)|(_ & F)]); [congruence|].
      pose proof (shell_ncfn _ _ S3) as N4.
      destruct F as [S4|(s4 & L4 & S4)]; pose proof (shell_ncfn _ _ S4) as N5; [|pose proof (lims_ncfn _ _ L4)]; congruence.
Qed.
End Fail.
Print Assumptions C39_failure_ends_the_call.

(** The reaction written for a recoverable failure (no caller constructs one):
    counted, a quarter of the step unless the constraints already chose the
    factor, the order kept, given up once [maxncf] failures have been seen in
    this step. *)
Theorem C39_recoverable_reaction (T LSt NSt : Type) (S : Scalar T) (st : ida T LSt NSt) k ek ek1 ncf nef :
  exists st' r, handle_n_flag st (EIda (RecoverableFail k)) ek ek1 ncf nef = Ret (st', ncf + 1, nef, r) /\
    ncfn st' = ncfn st + 1 /\ netf st' = netf st /\ kk st' = kk st /\ nlp st' = nlp st /\ phi st' = phi st /\
    (k <> RecConstraint -> hh st' = (hh st * squarter)%sc) /\ (k = RecConstraint -> hh st' = (hh st * rr st)%sc) /\
    (r = Ok tt <-> ncf + 1 < maxncf st) /\
    (r <> Ok tt -> r = Err (EIda (match k with RecResidual => ResidualFail | RecConstraint => ConstraintFail | _ => ConvergenceFail end))).
Proof.
  unfold handle_n_flag. cbv zeta.
  match goal with |- context [maxncf ?x] => change (maxncf x) with (maxncf (match k with RecConstraint => st | _ => st end)) ||
    assert (Em : maxncf x = maxncf st) by (destruct k; reflexivity) end.
  try rewrite Em.
  replace (maxncf (match k with RecConstraint => st | _ => st end)) with (maxncf st) by (destruct k; reflexivity).
  destruct (Nat.ltb_spec (ncf + 1) (maxncf st)) as [Hlt|Hge]; do 2 eexists; (split; [reflexivity|]);
    destruct k; cbn; repeat split; try reflexivity; try congruence; try lia; try (intros X; exfalso; apply X; reflexivity).
Qed.
Print Assumptions C39_recoverable_reaction.

(** A solver that fails to converge once, recoverably. *)
Definition flatF : problem float := mkproblem 1 0
  (fun _ _ yp _ => vget yp 0) (fun _ cj _ _ _ _ _ => cj) (fun _ _ _ _ => 0%float).
Definition fail_once : script float := [None].
Definition fail_onceNLS : NLSolver float (script float) := ScriptNLS fail_once.


(** Ten failures are allowed; the first one ends the call after a single
    attempt. *)
Theorem C39_refuted : exists (st0 st' : ida float (list nat) (script float)) t,
  @ida_new float (list nat) (script float) _ _ fail_onceNLS flatF [1%float] [0%float] = Ret st0 /\ maxncf st0 = 10 /\
  @solve float (list nat) (script float) _ _ fail_onceNLS flatF (ewt_set_sv 1e-4%float [1e-6%float]) 600 100 st0 1%float 0%float Normal
    = Ret (st', t, Err (ENls ConvergenceRecover)) /\
  get_num_nonlin_solv_conv_fails st' = 1 /\ count is_try (trace (lp (nlp st'))) = 1.
Proof.
  destruct (@ida_new float (list nat) (script float) _ _ fail_onceNLS flatF [1%float] [0%float]) as [st0| |] eqn:E0; [|vm_compute in E0; discriminate..].
  destruct (@solve float (list nat) (script float) _ _ fail_onceNLS flatF (ewt_set_sv 1e-4%float [1e-6%float]) 600 100 st0 1%float 0%float Normal)
    as [((st' & t) & r)| |] eqn:E.
  2,3: exfalso; vm_compute in E0; injection E0 as <-; vm_compute in E; discriminate.
  exists st0, st', t. vm_compute in E0. injection E0 as <-. vm_compute in E. injection E as <- <- <-.
  split; [reflexivity|]. split; [reflexivity|]. split; [reflexivity|]. split; reflexivity.
Qed.

Example C39_hypotheses_met : exists (st st' : ida float (list nat) (script float)) t m,
  @nls_lawful float (script float) fail_onceNLS /\ config_ok (default_config flatF) /\
  @reach float (list nat) (script float) _ _ fail_onceNLS flatF (ewt_set_sv 1e-4%float [1e-6%float]) (default_config flatF) [1%float] [0%float] st /\
  @solve float (list nat) (script float) _ _ fail_onceNLS flatF (ewt_set_sv 1e-4%float [1e-6%float]) 600 100 st 1%float 0%float Normal
    = Ret (st', t, Err (ENls m)).
Proof.
  destruct C39_refuted as (st0 & st' & t & E0 & _ & E & _). exists st0, st', t, ConvergenceRecover.
  split; [apply script_lawful|]. split; [unfold config_ok; cbn; lia|]. split; [|exact E].
  rewrite <- (configure_default flatF _ _ _ E0). constructor. exact E0.
Qed.
Print Assumptions C39_refuted.
