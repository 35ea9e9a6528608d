(** * PropJac: where the Jacobian is evaluated (C79): src/ida_nls.rs 118-187,
      nonlinear/src/newton.rs 51-167 *)
Require Import List Arith Bool Lia Floats.
Import ListNotations.
Require Import Verif.Base Verif.Scalar Verif.ScalarF Verif.Norms Verif.Newton Verif.NewtonSpec Verif.IdaState
  Verif.IdaNls Verif.IdaCore Verif.IdaRoots Verif.IdaSolve Verif.BaseFacts Verif.NewtonFacts
  Verif.IdaFacts Verif.IdaLoops Verif.IdaStep Verif.IdaSpec Verif.IdaShell Verif.IdaReach Verif.IdaInv
  Verif.IdaCount Verif.IdaLife Verif.IdaTrace Verif.IdaAccept Verif.IdaJac Verif.Witness.
Open Scope nat_scope.

(** A Jacobian evaluation directly follows a residual evaluation with the same
    y and y'. *)
Definition follows {T} (e : event T) (past : list (event T)) : Prop :=
  match e with
  | CJac _ _ y yp => exists t before, past = CRes t y yp :: before
  | _ => True
  end.

Section Solve.
Context {T LSt : Type} `{Scalar T} `{LSolver T LSt}.
Variable prob : problem T.
Notation n := (model_size prob).
Notation P := (ida_nlproblem prob).
Notation np := (nlprob T LSt).
Notation tr s := (trace (lp s)).

Lemma sys_follows (s s' : np) y f r : every follows (tr s) -> nlp_sys prob s y = Ret (s', f, r) ->
  every follows (tr s') /\ tr s' = CRes (tn s) (yy s') (yp s') :: tr s.
Proof.
  unfold nlp_sys. intros F E. cbv zeta in E. injection E as <- _ _. split; [|reflexivity].
  apply every_cons; [exact I|exact F].
Qed.

Lemma setup_follows (s s' : np) t before y f j r : every follows (tr s) -> tr s = CRes t (yy s) (yp s) :: before ->
  nlp_setup prob s y f j = Ret (s', r) -> every follows (tr s').
Proof.
  unfold nlp_setup, lp_setup. intros F Ht E. cbv zeta in E. destruct (n =? 0); minv; cbn; [exact F|].
  apply every_cons; [|exact F]. exists t, before. exact Ht.
Qed.

Lemma inner_follows fuel : forall w tol nw (s : np) y nw' s' y' r,
  every follows (tr s) -> inner_loop P n fuel w tol nw s y = Ret (nw', s', y', r) -> every follows (tr s').
Proof.
  induction fuel as [|fuel IH]; intros w tol nw s y nw' s' y' r F E; [discriminate|].
  cbn [inner_loop] in E. cbn [np_sys np_solve np_ctest ida_nlproblem] in E.
  apply bind_ret_inv in E as (((s1 & d) & r1) & E1 & E). cbv beta iota zeta in E.
  apply solve_run in E1 as (B1 & _). rewrite <- B1 in F.
  destruct r1 as [u|e]; [|injection E as _ <- _ _; exact F].
  apply bind_ret_inv in E as ((s2 & r2) & E2 & E). cbv beta iota zeta in E.
  apply ctest_run in E2 as (C1 & _). rewrite <- C1 in F.
  destruct r2 as [[|]|e]; [injection E as _ <- _ _; exact F| |injection E as _ <- _ _; exact F].
  destruct (_ <=? _); [injection E as _ <- _ _; exact F|].
  apply bind_ret_inv in E as (((s3 & d3) & r3) & E3 & E). cbv beta iota zeta in E.
  apply sys_follows in E3 as (E3 & _); [|exact F].
  destruct r3; [eapply IH; [exact E3|exact E]|injection E as _ <- _ _; exact E3].
Qed.

Lemma attempt_follows y0 w tol call jbad nw (s : np) y nw' s' y' r :
  every follows (tr s) -> attempt P n y0 w tol call jbad nw s y = Ret (nw', s', y', r) -> every follows (tr s').
Proof.
  intros F E. unfold attempt in E. cbn [np_sys np_setup ida_nlproblem] in E.
  apply bind_ret_inv in E as (((sa & d) & ra) & Ea & E). cbv beta iota zeta in E.
  apply sys_follows in Ea as (Fa & Ta); [|exact F].
  destruct ra as [u|e]; [|injection E as _ <- _ _; exact Fa].
  apply bind_ret_inv in E as (((nb & sb) & rb) & Eb & E). cbv beta iota zeta in E.
  assert (Fb : every follows (tr sb)).
  { destruct call; [|injection Eb as _ <- _; exact Fa].
    apply bind_ret_inv in Eb as ((sc & rc) & Ec & Eb). cbv beta iota zeta in Eb.
    apply (setup_follows _ _ _ _ _ _ _ _ Fa Ta) in Ec. destruct rc; injection Eb as _ <- _; exact Ec. }
  destruct rb as [u0|e]; [|injection E as _ <- _ _; exact Fb].
  eapply inner_follows; [exact Fb|exact E].
Qed.

Lemma newton_follows fuel : forall y0 w tol call jbad nw (s : np) y nw' s' y' r,
  every follows (tr s) -> outer_loop P n fuel y0 w tol call jbad nw s y = Ret (nw', s', y', r) -> every follows (tr s').
Proof.
  induction fuel as [|fuel IH]; intros y0 w tol call jbad nw s y nw' s' y' r F E; [discriminate|].
  cbn [outer_loop] in E. apply bind_ret_inv in E as ((((n1 & s1) & y1) & r1) & E1 & E). cbv beta iota zeta in E.
  apply (attempt_follows _ _ _ _ _ _ _ _ _ _ _ _ F) in E1.
  destruct r1 as [[]|[]]; try (injection E as _ <- _ _; exact E1). destruct (negb (nw_jcur n1)); eauto.
Qed.
End Solve.

Section Lives.
Context {T LSt : Type} `{Scalar T} `{LSolver T LSt}.
Variable prob : problem T.
Variable ewt_set : list T -> list T.
Variable fuel : nat.
Local Instance newton_pj : NLSolver T (newton T) := NewtonNLS fuel.
Variable c : @config T.
Hypothesis Hc : config_ok c.
Notation state := (ida T LSt (newton T)).
Notation tr st := (trace (lp (nlp st))).
Notation Hl := (newton_lawful fuel).

Lemma try_follows (st st1 : state) ck ek ek1 r :
  try_step prob st = Ret (st1, ck, ek, ek1, r) -> every follows (tr st) -> every follows (tr st1).
Proof.
  intros E F. unfold try_step in E. set (sx := on_lp (push_ev (CTry (tn (nlp st)) (hh st) (kk st))) st) in E.
  apply bind_ret_inv in E as ((s1 & c1) & E1 & E). apply bind_ret_inv in E as (s2 & E2 & E).
  apply bind_ret_inv in E as ((s3 & r3) & E3 & E). cbv beta iota in E.
  assert (X1 : tr s2 = CTry (tn (nlp st)) (hh st) (kk st) :: tr st).
  { destruct (set_coeffs_frame _ _ _ _ E1) as (_ & _ & _ & _ & _ & _ & _ & N1 & N2).
    destruct (predict_frame _ _ _ E2) as (_ & _ & _ & _ & _ & M1 & M2). rewrite advance_tn_eq in M1, M2.
    rewrite M2. change (nlp (on_nlp (set_tn (tn_next s1)) s1)) with (set_tn (tn_next s1) (nlp s1)). rewrite N2. reflexivity. }
  assert (F2 : every follows (tr s2)) by (rewrite X1; apply every_cons; [exact I|exact F]). clear E1 E2 sx X1.
  assert (F3 : every follows (tr s3)).
  { unfold nonlinear_solve in E3. destruct (nls_prepare_cj s2) as (P1 & _). destruct (nls_prepare s2) as (sp & call). cbn [fst] in P1.
    cbn [nls_setup newton_pj NewtonNLS bind] in E3. cbv zeta in E3.
    apply bind_ret_inv in E3 as ((((nw' & x) & eev) & r4) & E4 & E3). cbv beta iota in E3.
    cbn [nls_solve newton_pj NewtonNLS] in E4. unfold newton_solve in E4.
    apply newton_follows in E4; [|match goal with |- every follows (trace (lp ?s)) => change s with (nlp sp) end; rewrite P1; exact F2].
    destruct r4; [|injection E3 as <- _; exact E4]. destruct (constraints_set _); [discriminate|injection E3 as <- _; exact E4]. }
  destruct r3 as [u|e].
  - apply bind_ret_inv in E as ((((s4 & ek') & ek1') & r4) & E4 & E). cbv beta iota in E. injection E as <- _ _ _ <-.
    destruct (test_error_frame _ _ _ _ _ _ _ E4) as (_ & _ & _ & _ & _ & _ & _ & _ & _ & _ & Fr).
    destruct r4 as [u'|e]; [destruct Fr as (_ & ->); exact F3|destruct Fr as (_ & _ & ->)]. apply every_cons; [exact I|exact F3].
  - injection E as <- _ _ _ _. exact F3.
Qed.

Definition JF (o : option (T * nat)) (st : state) : Prop := every follows (tr st).

Lemma follows_quiet (a b : list (event T)) evs : every follows a -> b = evs ++ a ->
  Forall (fun e => is_root e || is_warn e = true) evs -> every follows b.
Proof.
  intros F -> Hq. induction Hq as [|e evs He _ IH]; [exact F|]. cbn. apply every_cons; [|exact IH].
  destruct e; cbn in *; try exact I. discriminate.
Qed.

(** ** C79 *)
Theorem C79_jacobian_arguments yy0 yp0 (st : state) new past t cj y yp :
  reach prob ewt_set c yy0 yp0 st -> tr st = new ++ CJac t cj y yp :: past ->
  exists t' before, past = CRes t' y yp :: before.
Proof.
  intros Hr Et. assert (F : JF None st); [|exact (F _ _ _ Et)].
  refine (reach_life prob ewt_set Hl JF c yy0 yp0 st Hc _ _ _ _ _ Hr).
  - intros s E. pose proof (new_fields prob _ _ _ E) as F. destruct F as (_ & _ & _ & _ & _ & _ & _ & _ & _ & F10 & _).
    unfold JF. assert (E0 : tr (configure c s) = []) by exact F10. rewrite E0. apply every_nil.
  - intros a b Ho F S. destruct (sh_trace _ _ _ S) as (evs & T1 & T2 & _). exact (follows_quiet _ _ evs F T1 T2).
  - intros a b Ho F Hz S. destruct S as [(_ & ->)|(ts & _ & _ & ->)]; [exact F|].
    unfold JF, limit_to_tstop. destruct (_ <? _)%sc; exact F.
  - intros a tout x Ho F Hz E. apply first_call_frame in E. cbv zeta in E. destruct E as (_ & _ & _ & _ & F2). unfold JF.
    destruct x as [(s & m)|s].
    + destruct F2 as (_ & _ & _ & F2 & _). rewrite F2. exact F.
    + destruct F2 as (_ & _ & _ & _ & _ & _ & evs & F3 & F4 & _). apply (follows_quiet _ _ evs F F3).
      eapply Forall_impl; [|exact F4]. cbn. intros e ->. reflexivity.
  - split; [|split; [|split]].
    + intros s Ho F Hlim Hfr. unfold JF.
      destruct (init_fields s) as (_ & _ & _ & _ & _ & _ & _ & F8 & _ & _ & _ & _ & _ & _ & _ & _ & _ & _ & F19 & _).
      rewrite F19. apply every_cons; [exact I|exact F].
    + intros s t0 nef st1 ck ek ek1 st' Hi F E1 Htr Hat Hnf Hrt. unfold JF. rewrite (rt_nlp _ _ _ _ _ Hrt). cbn.
      exact (try_follows _ _ _ _ _ _ E1 F).
    + intros s t0 nef st1 ck ek ek1 st2 Hi F E1 Htr Hat Hcp. unfold JF, st_commit. cbn. rewrite (cp_nlp _ _ _ Hcp).
      apply every_cons; [exact I|]. exact (try_follows _ _ _ _ _ _ E1 F).
    + intros s t0 nef st1 ck ek ek1 st' e Hi F E1 Htr Hat Hg Hx. unfold JF. rewrite (gu_nlp _ _ _ _ Hg).
      exact (try_follows _ _ _ _ _ _ E1 F).
Qed.
End Lives.
Print Assumptions C79_jacobian_arguments.

Example C79_hypotheses_met : exists (st : fstate) new past t c y yp, roberts_reach st /\
  trace (lp (nlp st)) = new ++ CJac t c y yp :: past /\ past <> [].
Proof.
  destruct (roberts_life_ok to_4 (fun st _ => existsb is_jac (trace (lp (nlp st))))) as (st & rs & Hr & Ht); [vm_compute; reflexivity|].
  apply existsb_exists in Ht. destruct Ht as (e & Hi & He). destruct e; try discriminate.
  apply in_split in Hi. destruct Hi as (new & past & E). exists st, new, past. do 4 eexists. split; [exact Hr|]. split; [exact E|].
  intros ->. assert (Hc : config_ok (default_config robertsF)) by (split; cbn; lia). unfold roberts_reach in Hr.
  destruct (C79_jacobian_arguments _ _ _ _ Hc _ _ _ _ _ _ _ _ _ Hr E) as (? & ? & X). discriminate X.
Qed.
