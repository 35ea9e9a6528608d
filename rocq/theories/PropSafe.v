(** * PropSafe: no panics and termination over every life of an integrator
      object, for every scalar: C31, C35, C47 (src/lib.rs, src/impl_solve.rs) *)
Require Import List Arith Bool Lia Floats.
Import ListNotations.
Require Import Verif.Base Verif.Scalar Verif.ScalarF Verif.Dense Verif.Norms Verif.Newton Verif.NewtonSpec
  Verif.IdaState Verif.IdaNls Verif.IdaCore Verif.IdaRoots Verif.IdaSolve Verif.IdaIo Verif.BaseFacts
  Verif.NewtonFacts Verif.IdaFacts Verif.IdaLoops Verif.IdaStep Verif.IdaSpec Verif.IdaShell Verif.IdaReach
  Verif.IdaInv Verif.IdaCount Verif.IdaLife Verif.IdaTrace Verif.IdaSafe Verif.NewtonSafe Verif.Script Verif.Witness.
Open Scope nat_scope.
Set Warnings "-inexact-float".

(** Calls other than [get_dky], which can panic (C29). *)
Definition not_dky {T} (k : @call T) : Prop := match k with CallGetDky _ _ => False | _ => True end.

Section AnyScalar.
Context {T LSt NSt : Type} `{Scalar T} `{LSolver T LSt} `{NLSolver T NSt}.
Variable prob : problem T.
Variable ewt_set : list T -> list T.
Notation n := (model_size prob).
Notation state := (ida T LSt NSt).
Notation tr st := (trace (lp (nlp st))).

Lemma safe_True_no_panic {A} (m : outcome A) : safe True m <-> m <> Panic.
Proof. destruct m; cbn; split; try congruence; auto. Qed.

Lemma any_preserved (Q : LSt -> mat T -> Prop) : (forall s m, Q s m) ->
  preserves (ida_nlproblem prob) (fun x => Q (lp_ls (lp x)) (lp_matj (lp x))).
Proof. intros h. split; [|split; [|split]]; intros; apply h. Qed.

Lemma api_safe (D : Prop) (Q : LSt -> mat T -> Prop) rfuel :
  @nls_lawful T NSt _ ->
  preserves (ida_nlproblem prob) (fun x => Q (lp_ls (lp x)) (lp_matj (lp x))) ->
  (forall (s : NSt) y, safe D (nls_setup s y)) ->
  (forall (s : NSt) (x : nlprob T LSt) y0 y w tol call, Q (lp_ls (lp x)) (lp_matj (lp x)) ->
     safe D (nls_solve _ (ida_nlproblem prob) n s x y0 y w tol call)) ->
  (forall st : state, 0 < num_roots prob -> root_find prob rfuel st = Diverge -> D) ->
  Q (ls_new n) (mkmat n n (fun _ _ => szero)) ->
  forall c yy0 yp0 (st : state) fuel k, config_ok c -> reach prob ewt_set c yy0 yp0 st -> not_dky k ->
  (rfuel < Nat.max 3 (g_maxnef c) -> D) -> (g_mxstep c = 0 -> D) -> (fuel < g_mxstep c + 1 -> D) ->
  safe D (api_call prob ewt_set fuel rfuel st k).
Proof.
  intros Hl HQ Hset Hsol Hroot Hnew c yy0 yp0 st fuel k Hc Hr Hk D1 D2 D3.
  pose proof (reach_wf prob ewt_set Hl Q HQ c yy0 yp0 st Hc Hnew Hr) as W.
  pose proof (tl_cfg _ _ _ _ (reach_tlink prob ewt_set Hl c Hc yy0 yp0 st Hr)) as (_ & C2 & C3 & _).
  destruct k as [tout tret itask|t|t k]; [| |destruct Hk].
  - cbn [api_call]. apply safe_bind; [|intros ((s & t) & r) _; exact I].
    apply solve_safe with (Q := Q); auto; rewrite ?C2, ?C3; auto.
  - cbn [api_call]. apply safe_bind; [|intros (s & r) _; exact I].
    apply wf_gs with (Q := Q); auto.
Qed.

(** ** C31 *)
(** Whatever the nonlinear solver does short of panicking itself: indexing
    ([aget], [aset]), subtraction on counters and everything else that can
    panic is in range. *)
Theorem C31_no_panic : @nls_lawful T NSt _ ->
  (forall (s : NSt) y, nls_setup s y <> Panic) ->
  (forall (s : NSt) (x : nlprob T LSt) y0 y w tol call,
     nls_solve _ (ida_nlproblem prob) n s x y0 y w tol call <> Panic) ->
  forall c yy0 yp0 (st : state) fuel rfuel k,
  config_ok c -> reach prob ewt_set c yy0 yp0 st -> not_dky k ->
  api_call prob ewt_set fuel rfuel st k <> Panic.
Proof.
  intros Hl Hs Hn c yy0 yp0 st fuel rfuel k Hc Hr Hk. apply safe_True_no_panic.
  apply api_safe with (Q := fun _ _ => True) (c := c) (yy0 := yy0) (yp0 := yp0); auto.
  - exact (any_preserved (fun _ _ => True) (fun _ _ => I)).
  - intros s y. apply safe_True_no_panic. apply Hs.
  - intros. apply safe_True_no_panic. apply Hn.
Qed.

(** ** C35, C47 *)
Theorem C35_step_returns : @nls_lawful T NSt _ ->
  (forall (s : NSt) y, exists s', nls_setup s y = Ret s') ->
  (forall (s : NSt) (x : nlprob T LSt) y0 y w tol call, exists r,
     nls_solve _ (ida_nlproblem prob) n s x y0 y w tol call = Ret r) ->
  forall c yy0 yp0 (st : state) fuel,
  config_ok c -> reach prob ewt_set c yy0 yp0 st -> Nat.max 3 (g_maxnef c) <= fuel ->
  exists r, step prob fuel st = Ret r.
Proof.
  intros Hl Hs Hn c yy0 yp0 st fuel Hc Hr Hf. apply safe_false.
  pose proof (tl_cfg _ _ _ _ (reach_tlink prob ewt_set Hl c Hc yy0 yp0 st Hr)) as (_ & C2 & _).
  apply step_safe with (Q := fun _ _ => True).
  - exact Hl.
  - exact (any_preserved (fun _ _ => True) (fun _ _ => I)).
  - intros s y. destruct (Hs s y) as (s' & ->). exact I.
  - intros s x y0 y w tol call _. destruct (Hn s x y0 y w tol call) as (r & ->). exact I.
  - eapply reach_wf; eauto. exact (any_preserved (fun _ _ => True) (fun _ _ => I)).
  - rewrite C2. lia.
Qed.

(** [solve] returns, or some root search does not. *)
Theorem C47_solve_returns : @nls_lawful T NSt _ ->
  (forall (s : NSt) y, exists s', nls_setup s y = Ret s') ->
  (forall (s : NSt) (x : nlprob T LSt) y0 y w tol call, exists r,
     nls_solve _ (ida_nlproblem prob) n s x y0 y w tol call = Ret r) ->
  forall c yy0 yp0 (st : state) fuel rfuel tout tret itask,
  config_ok c -> reach prob ewt_set c yy0 yp0 st ->
  Nat.max 3 (g_maxnef c) <= rfuel -> 0 < g_mxstep c < fuel ->
  (exists st' t r, solve prob ewt_set fuel rfuel st tout tret itask = Ret (st', t, r)) \/
  (0 < num_roots prob /\ exists s : state, root_find prob rfuel s = Diverge).
Proof.
  intros Hl Hs Hn c yy0 yp0 st fuel rfuel tout tret itask Hc Hr Hf Hm.
  pose (D := 0 < num_roots prob /\ exists s : state, root_find prob rfuel s = Diverge).
  assert (A : safe D (api_call prob ewt_set fuel rfuel st (CallSolve tout tret itask))).
  { apply api_safe with (Q := fun _ _ => True) (c := c) (yy0 := yy0) (yp0 := yp0); auto; try lia.
    - exact (any_preserved (fun _ _ => True) (fun _ _ => I)).
    - intros s y. destruct (Hs s y) as (s' & ->). exact I.
    - intros s x y0 y w tol call _. destruct (Hn s x y0 y w tol call) as (r & ->). exact I.
    - intros s P E. split; eauto.
    - exact I. }
  cbn [api_call] in A. destruct (solve prob ewt_set fuel rfuel st tout tret itask) as [((s & t) & r)| |]; cbn in A.
  - left. exists s, t, r. reflexivity.
  - destruct A.
  - right. exact A.
Qed.
End AnyScalar.

(** ** C31 with the solvers of the library *)
(** [Dense::setup] reporting a zero pivot makes [LProblem::setup] panic (C44),
    so Jacobians have to be accepted; an empty system panics too (C05). *)
Theorem C31_newton_dense_no_panic : forall {T} `{Scalar T} (prob : problem T) ewt_set nfuel,
  1 <= model_size prob -> factorable prob ->
  let NL := NewtonNLS nfuel in
  forall c yy0 yp0 (st : ida T (list nat) (newton T)) fuel rfuel k,
  config_ok c -> reach prob ewt_set c yy0 yp0 st -> not_dky k ->
  api_call prob ewt_set fuel rfuel st k <> Panic.
Proof.
  intros T HT prob ewt_set nfuel Hn Hf NL c yy0 yp0 st fuel rfuel k Hc Hr Hk.
  apply safe_True_no_panic.
  apply api_safe with (Q := pivots_ok prob) (c := c) (yy0 := yy0) (yp0 := yp0); auto.
  - apply newton_lawful.
  - apply QD_preserved; assumption.
  - intros s y. exact I.
  - intros s x y0 y w tol call q. apply newton_dense_safe; assumption.
  - apply QD_new. assumption.
Qed.
Print Assumptions C31_no_panic.
Print Assumptions C31_newton_dense_no_panic.
Print Assumptions C35_step_returns.
Print Assumptions C47_solve_returns.

(** ** Concrete cases *)
(** A total lawful solver, and a life of three steps with a failed error test. *)
Example C31_C35_C47_hypotheses_met :
  let NL := ScriptNLS [Some [1; 1; 1]]%float in
  @nls_lawful float _ NL /\
  (forall (s : script float) y, exists s', @nls_setup _ _ NL s y = Ret s') /\
  (forall (s : script float) (x : nlprob float (list nat)) y0 y w tol call, exists r,
     @nls_solve _ _ NL _ (ida_nlproblem robertsF) (model_size robertsF) s x y0 y w tol call = Ret r) /\
  config_ok robertsD /\ Nat.max 3 (g_maxnef robertsD) <= 100 /\ 0 < g_mxstep robertsD < 600 /\
  exists st : ida float (list nat) (script float),
    reach robertsF roberts_ewt robertsD [1; 0; 0]%float [-0.04; 0.04; 0]%float st /\ nst st = 3 /\ netf st = 1.
Proof.
  intros NL. split; [apply script_lawful|]. split; [apply script_setup_total|].
  split; [apply script_solve_total|]. split; [unfold config_ok; cbn; lia|].
  split; [cbn; lia|]. split; [cbn; lia|].
  destruct (life_test_ok robertsF roberts_ewt robertsD [1; 0; 0]%float [-0.04; 0.04; 0]%float 600 100
    [CallSolve 0.4 0 OneStep; CallSolve 0.4 0 OneStep; CallSolve 0.4 0 OneStep]%float
    (fun st _ => (nst st =? 3) && (netf st =? 1))) as (st & rs & Hr & Ht); [vm_compute; reflexivity|].
  apply andb_true_iff in Ht. destruct Ht as (H1 & H2). exists st.
  split; [exact Hr|]. split; apply Nat.eqb_eq; assumption.
Qed.

(** Algebraic equations A*y = A*(1,1), with a Jacobian that needs no row
    exchange and one that does. *)
Definition linearF (a b c d : float) : problem float := mkproblem 2 0
  (fun _ y _ i => match i with 0 => a * vget y 0 + b * vget y 1 - (a + b)
                   | _ => c * vget y 0 + d * vget y 1 - (c + d) end)%float
  (fun _ _ _ _ _ i j => match i, j with 0, 0 => a | 0, _ => b | _, 0 => c | _, _ => d end)
  (fun _ _ _ _ => 0%float).

Example C31_newton_dense_hypotheses_met :
  1 <= model_size (linearF 2 1 1 3) /\ factorable (linearF 2 1 1 3) /\ factorable (linearF 0 1 1 3) /\
  exists st : fstate,
    reach (linearF 2 1 1 3) (ewt_set_sv 1e-4%float [1e-8; 1e-6]%float) (default_config (linearF 2 1 1 3))
      [1; 1]%float [0; 0]%float st /\ 2 <= nst st.
Proof.
  split; [cbn; lia|].
  split; [intros c y yp r [|p0 [|p1 [|]]] Hp; try discriminate Hp; do 2 eexists; vm_compute; reflexivity|].
  split; [intros c y yp r [|p0 [|p1 [|]]] Hp; try discriminate Hp; do 2 eexists; vm_compute; reflexivity|].
  destruct (life_test_ok (linearF 2 1 1 3) (ewt_set_sv 1e-4%float [1e-8; 1e-6]%float)
    (default_config (linearF 2 1 1 3)) [1; 1]%float [0; 0]%float 600 100
    [CallSolve 0.4 0 OneStep; CallSolve 0.4 0 OneStep; CallSolve 0.4 0 OneStep]%float
    (fun st _ => 2 <=? nst st)) as (st & rs & Hr & Ht); [vm_compute; reflexivity|].
  exists st. split; [exact Hr|apply Nat.leb_le; exact Ht].
Qed.
