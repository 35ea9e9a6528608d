(** * IdaNoFail: nonlinear solvers that never report a failure to the integrator
    The Newton solver of the crate is one of them when it works on the
    integrator's own problem: the callbacks report nothing but recoverable
    failures, and on those it tries again for ever. *)
Require Import List Arith Bool Lia.
Import ListNotations.
Require Import Verif.Base Verif.Scalar Verif.Dense Verif.Norms Verif.Newton Verif.NewtonSpec Verif.IdaState
  Verif.IdaNls Verif.IdaCore Verif.IdaRoots Verif.IdaSolve Verif.IdaIo Verif.BaseFacts Verif.NewtonFacts
  Verif.IdaFacts Verif.IdaLoops Verif.IdaStep Verif.IdaSpec Verif.IdaShell Verif.IdaReach Verif.IdaInv
  Verif.IdaCount Verif.IdaLife Verif.IdaTrace Verif.IdaAccept Verif.Script.
Open Scope nat_scope.

Section NoFail.
Context {T LSt NSt : Type} `{Scalar T} `{LSolver T LSt} `{NLSolver T NSt}.
Variable prob : problem T.
Variable ewt_set : list T -> list T.
Hypothesis Hl : @nls_lawful T NSt _.
Notation n := (model_size prob).
Notation state := (ida T LSt NSt).

(** [good] objects succeed and stay good. *)
Variable good : NSt -> Prop.
Definition never_fails : Prop :=
  (forall s y s' y' r, good s -> nls_setup s y = Ret (s', y', r) -> good s' /\ r = Ok tt) /\
  (forall s (x : nlprob T LSt) d y w tol call s' x' y' r, good s ->
     nls_solve _ (ida_nlproblem prob) n s x d y w tol call = Ret (s', x', y', r) -> good s' /\ r = Ok tt).
Hypothesis Hg : never_fails.

Lemma nonlinear_good (st st' : state) r : good (nls st) -> nonlinear_solve prob st = Ret (st', r) ->
  good (nls st') /\ r = Ok tt.
Proof.
  destruct Hg as (G1 & G2). unfold nonlinear_solve. intros G E.
  destruct (nls_prepare_calls prob st) as (x & b & Ep & _). rewrite Ep in E.
  apply bind_ret_inv in E. destruct E as (((s & d) & r1) & E1 & E). cbv beta iota in E.
  apply G1 in E1; [|exact G]. destruct E1 as (E1 & ->). cbv iota in E.
  apply bind_ret_inv in E. destruct E as ((((s2 & x2) & e2) & r2) & E2 & E). cbv beta iota in E.
  apply G2 in E2; [|exact E1]. destruct E2 as (E2 & ->). cbv iota in E.
  destruct (constraints_set _); [discriminate|]. injection E as <- <-. split; [exact E2|reflexivity].
Qed.

Lemma try_good (st st1 : state) ck ek ek1 r : good (nls st) -> try_step prob st = Ret (st1, ck, ek, ek1, r) ->
  good (nls st1) /\ forall m, r <> Err (ENls m).
Proof.
  unfold try_step. intros G E.
  set (sx := on_lp (push_ev (CTry (tn (nlp st)) (hh st) (kk st))) st) in E.
  apply bind_ret_inv in E as ((s1 & c1) & E1 & E). apply bind_ret_inv in E as (s2 & E2 & E).
  apply bind_ret_inv in E as ((s3 & r3) & E3 & E). cbv beta iota in E.
  assert (N : nls s2 = nls st).
  { destruct (set_coeffs_frame _ _ _ _ E1) as (_ & _ & _ & _ & _ & _ & _ & N1 & _).
    destruct (predict_frame _ _ _ E2) as (_ & _ & _ & _ & _ & N2 & _). rewrite advance_tn_eq in N2.
    assert (Q1 : nls s1 = nls st) by (change (nls st) with (nls sx); congruence).
    unfold stepst in N2. change (nls (on_nlp (set_tn (tn_next s1)) s1)) with (nls s1) in N2. congruence. }
  rewrite <- N in G. destruct (nonlinear_good _ _ _ G E3) as (P1 & ->).
  apply bind_ret_inv in E as ((((s4 & ek') & ek1') & r4) & E4 & E). cbv beta iota in E. injection E as <- <- <- <- <-.
  destruct (test_error_frame _ _ _ _ _ _ _ E4) as (_ & _ & _ & _ & _ & _ & _ & _ & F & _ & Fr).
  assert (N4 : nls s4 = nls s3) by congruence. rewrite N4. split; [exact P1|].
  intros m ->. destruct Fr as (Fr & _). discriminate.
Qed.

Definition Good (o : option (T * nat)) (st : state) : Prop := good (nls st) /\ ncfn st = 0.

Variable c : @config T.
Hypothesis Hc : config_ok c.
Variables yy0 yp0 : list T.
Hypothesis Hnew : good (nls_new n MAXNLSIT).

Lemma Good_new : i_new prob Good c yy0 yp0.
Proof.
  intros st E. unfold ida_new in E. destruct (_ && _); [|discriminate]. apply ret_inj in E. subst st.
  split; [exact Hnew|reflexivity].
Qed.
Lemma Good_shell : i_shell prob Good.
Proof.
  intros a b _ (G1 & G2) S. pose proof (sh_core _ _ _ S) as E.
  unfold core in E. cbv zeta in E. injection E. intros. split; congruence.
Qed.
Lemma Good_lims : i_lims Good.
Proof.
  intros a b _ (G1 & G2) _ S. destruct S as [(_ & ->)|(ts & _ & _ & ->)]; [split; assumption|].
  unfold limit_to_tstop. destruct (_ <? _)%sc; split; assumption.
Qed.
Lemma Good_first : i_first prob ewt_set Good.
Proof.
  intros a tout x _ (G1 & G2) _ E. apply first_call_frame in E. cbv zeta in E. destruct E as (E & _).
  unfold fkeep in E. cbv zeta in E. injection E. intros. split; congruence.
Qed.
Lemma Good_begin : i_begin prob ewt_set Good.
Proof.
  intros st _ (G1 & G2) _ _. unfold st_init. cbv zeta. destruct (nst _ =? 0); split; assumption.
Qed.
Lemma Good_retry : i_retry prob Good.
Proof.
  intros st t0 nef st1 ck ek ek1 st' _ (G1 & G2) Et Htr _ _ Hrt. destruct (try_good _ _ _ _ _ _ G1 Et) as (G & _).
  pose proof (rt_keep _ _ _ _ _ Hrt) as U3. pose proof (tr_cnt _ _ _ _ _ Htr) as U4. pinj. split; congruence.
Qed.
Lemma Good_commit : i_commit prob Good.
Proof.
  intros st t0 nef st1 ck ek ek1 st2 _ (G1 & G2) Et Htr _ Hcp. destruct (try_good _ _ _ _ _ _ G1 Et) as (G & _).
  pose proof (cp_keep _ _ _ Hcp) as U3. pose proof (tr_cnt _ _ _ _ _ Htr) as U4. pinj.
  split; [change (good (nls st2))|change (ncfn st2 = 0)]; congruence.
Qed.
Lemma Good_giveup : i_giveup prob Good.
Proof.
  intros st t0 nef st1 ck ek ek1 st' e _ (G1 & G2) Et Htr _ Hgu He. destruct (try_good _ _ _ _ _ _ G1 Et) as (G & Hne).
  destruct He as [(_ & _ & _ & _ & He)|((m & ->) & _)]; [|exfalso; exact (Hne m eq_refl)].
  pose proof (gu_keep _ _ _ _ Hgu) as U3. pose proof (tr_cnt _ _ _ _ _ Htr) as U4. pinj. split; congruence.
Qed.
Lemma Good_in : i_in prob ewt_set Good.
Proof. split; [exact Good_begin|]. split; [exact Good_retry|]. split; [exact Good_commit|exact Good_giveup]. Qed.

Lemma reach_good (st : state) : reach prob ewt_set c yy0 yp0 st -> Good None st.
Proof.
  apply (reach_life prob ewt_set Hl Good c yy0 yp0 st Hc);
    [apply Good_new|apply Good_shell|apply Good_lims|apply Good_first|exact Good_in].
Qed.
Lemma pieces_good (a b : state) : ordok a -> Good None a -> pieces prob ewt_set a b -> Good None b.
Proof.
  intros O G P.
  exact (proj2 (pieces_life prob ewt_set Hl Good a b Good_shell Good_lims Good_first Good_in P O G)).
Qed.
Lemma tries_good (s st : state) nef : ordok s -> limited s -> fresh prob ewt_set s -> Good None s ->
  tries prob (tn (nlp s)) (st_init s) st nef -> Good (Some (tn (nlp s), nef)) st.
Proof.
  intros O Hlim Hf G Ht.
  exact (proj2 (tries_life prob Hl Good _ _ _ _ Good_retry (instep_init _ O) (Good_begin _ O G Hlim Hf) Ht)).
Qed.
End NoFail.

(** The crate's Newton solver, for the integrator's problem. *)
Section NewtonOk.
Context {T LSt : Type} `{Scalar T} `{LSolver T LSt}.
Variable prob : problem T.
Notation n := (model_size prob).

Definition mild {A} (r : result A nlerr) : Prop := match r with Ok _ => True | Err e => e = ConvergenceRecover end.

Lemma ctest_mild (s s' : nlprob T LSt) m y d tol w r : nlp_ctest s m y d tol w = Ret (s', r) -> mild r.
Proof.
  unfold nlp_ctest. cbv zeta. intros E.
  destruct (m =? 0); [destruct (_ <=? _)%sc|destruct (_ <? _)%sc]; injection E as <- <-; cbn; auto.
Qed.

Lemma inner_mild fuel w tol : forall nw (s : nlprob T LSt) y nw' s' y' r,
  inner_loop (ida_nlproblem prob) n fuel w tol nw s y = Ret (nw', s', y', r) -> mild r.
Proof.
  induction fuel as [|fuel IH]; intros nw s y nw' s' y' r E; [discriminate|].
  cbn [inner_loop] in E. apply bind_ret_inv in E. destruct E as (((s1 & d1) & r1) & E1 & E). cbv beta iota zeta in E.
  cbn [np_solve ida_nlproblem] in E1. unfold nlp_solve in E1. apply bind_ret_inv in E1.
  destruct E1 as ((l & b) & _ & E1). cbv beta iota in E1. injection E1 as <- <- <-. cbv iota in E.
  apply bind_ret_inv in E. destruct E as ((s2 & r2) & E2 & E). cbv beta iota in E.
  pose proof (ctest_mild _ _ _ _ _ _ _ _ E2) as E2'. clear E2. destruct r2 as [[|]|e].
  - injection E as <- <- <- <-. exact I.
  - destruct (_ <=? _); [injection E as <- <- <- <-; reflexivity|].
    apply bind_ret_inv in E. destruct E as (((s3 & d3) & r3) & E3 & E). cbv beta iota in E.
    injection E3 as <- <- <-. exact (IH _ _ _ _ _ _ _ E).
  - injection E as <- <- <- <-. exact E2'.
Qed.

Lemma attempt_mild y0 w tol call jbad nw (s : nlprob T LSt) y nw' s' y' r :
  attempt (ida_nlproblem prob) n y0 w tol call jbad nw s y = Ret (nw', s', y', r) -> mild r.
Proof.
  unfold attempt. intros E. apply bind_ret_inv in E. destruct E as (((s1 & d1) & r1) & E1 & E). cbv beta iota zeta in E.
  injection E1 as <- <- <-. cbv iota in E.
  apply bind_ret_inv in E. destruct E as (((n2 & s2) & r2) & E2 & E). cbv beta iota in E.
  assert (r2 = Ok tt).
  { destruct call.
    - apply bind_ret_inv in E2. destruct E2 as ((s3 & r3) & E3 & E2). cbv beta iota in E2.
      cbn [np_setup ida_nlproblem] in E3. unfold nlp_setup in E3. apply bind_ret_inv in E3.
      destruct E3 as (l & _ & E3). injection E3 as <- <-. cbv iota in E2. injection E2 as <- <- <-. reflexivity.
    - injection E2 as <- <- <-. reflexivity. }
  subst r2. cbv iota in E. exact (inner_mild _ _ _ _ _ _ _ _ _ _ E).
Qed.

Lemma outer_ok fuel y0 w tol : forall call jbad nw (s : nlprob T LSt) y nw' s' y' r,
  outer_loop (ida_nlproblem prob) n fuel y0 w tol call jbad nw s y = Ret (nw', s', y', r) -> r = Ok tt.
Proof.
  induction fuel as [|fuel IH]; intros call jbad nw s y nw' s' y' r E; [discriminate|].
  cbn [outer_loop] in E. apply bind_ret_inv in E. destruct E as ((((n1 & s1) & y1) & r1) & E1 & E). cbv beta iota in E.
  apply attempt_mild in E1. destruct r1 as [u|e].
  - injection E as <- <- <- <-. reflexivity.
  - cbn in E1. subst e. destruct (negb _); exact (IH _ _ _ _ _ _ _ _ _ E).
Qed.

Lemma newton_never_fails fuel : @never_fails T LSt (newton T) _ _ (NewtonNLS fuel) prob (fun _ => True).
Proof.
  split.
  - intros s y s' y' r _ E. injection E as <- <- <-. auto.
  - intros s x d y w tol call s' x' y' r _ E. split; [exact I|]. exact (outer_ok _ _ _ _ _ _ _ _ _ _ _ _ _ E).
Qed.

Lemma script_never_fails s0 : @never_fails T LSt (script T) _ _ (ScriptNLS s0) prob (Forall (fun o => o <> None)).
Proof.
  split.
  - intros s y s' y' r G E. injection E as <- <- <-. auto.
  - intros s x d y w tol call s' x' y' r G E. cbn [nls_solve ScriptNLS] in E. unfold script_solve in E.
    apply bind_ret_inv in E. destruct E as (((x1 & f) & r2) & _ & E). cbv beta iota in E. injection E as <- <- <- <-.
    destruct s as [|[e|] l]; [auto| |].
    + inversion G; subst. auto.
    + inversion G; subst. congruence.
Qed.
End NewtonOk.
