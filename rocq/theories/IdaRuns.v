(** * IdaRuns: the internal steps of a life, apart from the calls that caused them *)
Require Import List Arith Bool Lia.
Import ListNotations.
Require Import Verif.Base Verif.BaseFacts Verif.Scalar Verif.Norms Verif.Newton Verif.NewtonSpec Verif.IdaState
  Verif.IdaNls Verif.IdaCore Verif.IdaRoots Verif.IdaSolve Verif.IdaFacts Verif.IdaLoops Verif.IdaStep Verif.IdaSpec
  Verif.IdaShell Verif.IdaReach Verif.IdaInv Verif.Units Verif.UnitsRel Verif.IdaKern.
Open Scope nat_scope.

(** A natural solver is lawful. *)
Lemma natural_lawful {T NSt} {NS : NLSolver T NSt} : nls_natural T NSt -> @nls_lawful T NSt _.
Proof.
  intros Hn S P Q (A & B & C & D) size s x d y w tol call s' x' y' r HQ E.
  pose proof (Hn S S P P (fun a b => b = a /\ Q a) (fun a b => b = a /\ Q a)) as X.
  specialize (fun h1 h2 h3 h4 => X h1 h2 h3 h4 size s x x d y w tol call (conj eq_refl HQ)).
  rewrite E in X. cbn in X. apply X.
  - intros a b v [[-> Ha]|[-> Ha]]; (destruct (np_sys P a v) as [[[a1 v1] r1]| |] eqn:E1; cbn; auto;
      repeat split; eapply A; eauto).
  - intros a b v v2 jb [-> Ha]. destruct (np_setup P a v v2 jb) as [[a1 r1]| |] eqn:E1; cbn; auto. repeat split; eapply B; eauto.
  - intros a b v v2 [-> Ha]. destruct (np_solve P a v v2) as [[[a1 v1] r1]| |] eqn:E1; cbn; auto. repeat split; eapply C; eauto.
  - intros a b m v v2 tl w2 [-> Ha]. destruct (np_ctest P a m v v2 tl w2) as [[a1 r1]| |] eqn:E1; cbn; auto. repeat split; eapply D; eauto.
Qed.

(** Events other than evaluations of the root functions and warnings: what the
    stepping itself did. *)
Definition own {T} (tr : list (event T)) : list (event T) := filter (fun e => negb (is_root e || is_warn e)) tr.

Lemma own_app {T} (a b : list (event T)) : own (a ++ b) = own a ++ own b.
Proof. apply filter_app. Qed.
Lemma own_none {T} (l : list (event T)) : Forall (fun e => is_root e || is_warn e = true) l -> own l = [].
Proof. induction 1 as [|e l E _ IH]; cbn; [reflexivity|]. rewrite E. exact IH. Qed.

(** The problem without its root functions. *)
Definition noroots {T} `{Scalar T} (p : problem T) : problem T :=
  mkproblem (model_size p) 0 (p_res p) (p_jac p) (fun _ _ _ _ => szero).

(** The part of a configuration that the steps depend on. *)
Definition numerics {T} `{Scalar T} (c : @config T) : @config T :=
  mkconfig (g_maxord c) 0 (g_maxnef c) (g_maxncf c) szero (g_hmax_inv c) (g_epcon c) (g_t0 c) (g_tstop c)
    (g_suppressalg c) (g_idv c) [].

Section Runs.
Context {T LSt NSt : Type} `{Scalar T} `{LSolver T LSt} `{NLSolver T NSt}.
Hypothesis Hn : nls_natural T NSt.
Variable ewt_set : list T -> list T.

Notation state := (ida T LSt NSt).

(** The fields a step reads, but for the weights. *)
Definition kcore (st : state) :=
  ((setup_done st, constraints_set st, suppressalg st), (phi st, psi st, alpha st, beta st, sigma st, gamma st),
   (delta st, idv st, ee st, tstop st), (kk st, kused st, knew st, phase st, ns st),
   (h0u st, hh st, hused st, rr st, cjlast st, eps_newt st),
   (epcon st, maxncf st, maxnef st, maxord st, hmax_inv st), (nst st, ncfn st, netf st, nls st),
   (let s := nlp st in
    ((yypredict s, yppredict s, savres s, tn s), (ss s, oldnrm s, toldel s, nre s, nsetups s))),
   (let l := lp (nlp st) in
    ((lp_ls l, lp_matj l, lp_x l, lp_sqrtn l, lp_eplifac l), (nje l, nli l, ncfl l),
     (cj l, cjold l, cjratio l)))).

Lemma kcore_put (a b : state) : kcore b = kcore a -> ewt (nlp b) = ewt (nlp a) -> trace (lp (nlp a)) = [] ->
  b = put false b a.
Proof.
  intros E Ew Et.
  destruct a as [? ? ? ? ? ? ? ? ? ? ? ? ? ? ? ? ? ? ? ? ? ? ? ? ? ? ? ? ? ? ? ? ? ? ? ? ? ? ? ? ? ? ? ? ? ? ? ? ? ? ? ? ? ? ? ? [? ? ? ? ? ? ? ? ? ? ? ? [? ? ? ? ? ? ? ? ? ? ? ? ? ? ? ? tra]]].
  destruct b as [? ? ? ? ? ? ? ? ? ? ? ? ? ? ? ? ? ? ? ? ? ? ? ? ? ? ? ? ? ? ? ? ? ? ? ? ? ? ? ? ? ? ? ? ? ? ? ? ? ? ? ? ? ? ? ? [? ? ? ? ? ? ? ? ? ? ? ? [? ? ? ? ? ? ? ? ? ? ? ? ? ? ? ? trb]]].
  cbn in Et, Ew. subst. unfold kcore in E. cbn in E.
  inversion E. subst. reflexivity.
Qed.

Lemma kcore_fields (a b : state) : kcore a = kcore b ->
  ((setup_done a = setup_done b /\ constraints_set a = constraints_set b /\ suppressalg a = suppressalg b) /\
   (phi a = phi b /\ psi a = psi b /\ alpha a = alpha b /\ beta a = beta b /\ sigma a = sigma b /\ gamma a = gamma b) /\
   (delta a = delta b /\ idv a = idv b /\ ee a = ee b /\ tstop a = tstop b) /\
   (kk a = kk b /\ kused a = kused b /\ knew a = knew b /\ phase a = phase b /\ ns a = ns b) /\
   (h0u a = h0u b /\ hh a = hh b /\ hused a = hused b /\ rr a = rr b /\ cjlast a = cjlast b /\ eps_newt a = eps_newt b) /\
   (epcon a = epcon b /\ maxncf a = maxncf b /\ maxnef a = maxnef b /\ maxord a = maxord b /\ hmax_inv a = hmax_inv b) /\
   (nst a = nst b /\ ncfn a = ncfn b /\ netf a = netf b /\ nls a = nls b)) /\
  (yypredict (nlp a) = yypredict (nlp b) /\ yppredict (nlp a) = yppredict (nlp b) /\ savres (nlp a) = savres (nlp b) /\
   tn (nlp a) = tn (nlp b) /\ ss (nlp a) = ss (nlp b) /\ oldnrm (nlp a) = oldnrm (nlp b) /\ toldel (nlp a) = toldel (nlp b) /\
   nre (nlp a) = nre (nlp b) /\ nsetups (nlp a) = nsetups (nlp b)) /\
  (let l := lp (nlp a) in ((lp_ls l, lp_matj l, lp_x l, lp_sqrtn l, lp_eplifac l), (nje l, nli l, ncfl l), (cj l, cjold l, cjratio l))) =
  (let l := lp (nlp b) in ((lp_ls l, lp_matj l, lp_x l, lp_sqrtn l, lp_eplifac l), (nje l, nli l, ncfl l), (cj l, cjold l, cjratio l))).
Proof.
  intros E. pose proof (f_equal snd E) as E2. unfold kcore in E. cbv zeta in E. injection E. intros.
  repeat split; assumption.
Qed.

Lemma put_kcore b (o a : state) : kcore (put b o a) = kcore a.
Proof. reflexivity. Qed.

(** A step from two states that agree on what it reads. *)
Lemma step_kern prob fuel (a b a' : state) r :
  kcore b = kcore a -> ewt (nlp b) = ewt (nlp a) -> length (cvals b) = length (cvals a) ->
  step prob fuel a = Ret (a', r) ->
  exists b' evs, step prob fuel b = Ret (b', r) /\ kcore b' = kcore a' /\
    trace (lp (nlp a')) = evs ++ trace (lp (nlp a)) /\ trace (lp (nlp b')) = evs ++ trace (lp (nlp b)) /\
    length (cvals b') = length (cvals a') /\
    (r = Ok tt -> yy (nlp b') = yy (nlp a') /\ yp (nlp b') = yp (nlp a')).
Proof.
  intros Ek Ew Ec E. set (z := on_lp (set_trace []) a).
  assert (a = put false a z) as Ea by (apply kcore_put; reflexivity).
  assert (b = put false b z) as Eb by (apply kcore_put; [exact Ek|exact Ew|reflexivity]).
  pose proof (step_over prob Hn (trace (lp (nlp a))) false fuel z a) as Xa.
  pose proof (step_over prob Hn (trace (lp (nlp b))) false fuel z b) as Xb.
  specialize (Xa ltac:(exists a; repeat split; exact Ea)).
  specialize (Xb ltac:(exists b; repeat split; [exact Eb|exact Ec])).
  rewrite E in Xa. destruct (step prob fuel z) as [[z' rz]| |]; cbn in Xa; try contradiction.
  destruct (step prob fuel b) as [[b' rb]| |]; cbn in Xb; try contradiction.
  destruct Xa as (-> & Xa). destruct Xb as (-> & Xb).
  destruct rz as [[]|e].
  - destruct Xa as (oa & -> & Ta & La). destruct Xb as (ob & -> & Tb & Lb).
    exists (put true ob z'), (trace (lp (nlp z'))). split; [reflexivity|]. split; [reflexivity|].
    cbn. rewrite Ta, Tb. repeat split. congruence.
  - destruct Xa as (oa & -> & Ta & La). destruct Xb as (ob & -> & Tb & Lb).
    exists (put false ob z'), (trace (lp (nlp z'))). split; [reflexivity|]. split; [reflexivity|].
    cbn. rewrite Ta, Tb. repeat split; try discriminate. congruence.
Qed.

Lemma ordok_cvals (a : state) : ordok a -> length (cvals a) = 6.
Proof. intros (A & _). apply A. Qed.

Lemma shell_kcore prob (a b : state) : shell prob a b -> tstop a = None ->
  kcore b = kcore a /\ own (trace (lp (nlp b))) = own (trace (lp (nlp a))).
Proof.
  intros S Ht. assert (tstop b = tstop a) as Et by (destruct (sh_tstop _ _ _ S); congruence).
  destruct (sh_trace _ _ _ S) as (evs & E & F & _). split.
  - pose proof (sh_core _ _ _ S) as C. unfold core, cfg in C. unfold kcore. cbv zeta in C |- *.
    rewrite Et. injection C. intros. congruence.
  - rewrite E, own_app, (own_none _ F). reflexivity.
Qed.

Lemma lims_none (a b : state) : lims a b -> tstop a = None -> b = a.
Proof. intros [(_ & E)|(ts & E & _)] Ht; [exact E|congruence]. Qed.

(** ** Runs: the steps from a start state, whoever asks for them *)

Section Run.
Variable prob : problem T.
Variable st0 : state.

Inductive run : nat -> state -> Prop :=
| run_0 s : kcore s = kcore st0 -> own (trace (lp (nlp s))) = [] -> run 0 s
| run_S k a fuel b r s :
    run k a -> ewt (nlp a) = ewt_set (row (phi a) 0) -> ordok a ->
    step prob fuel a = Ret (b, r) -> kcore s = kcore b -> own (trace (lp (nlp s))) = own (trace (lp (nlp b))) ->
    run (S k) s.

Lemma run_kcore k s s' : run k s -> kcore s' = kcore s -> own (trace (lp (nlp s'))) = own (trace (lp (nlp s))) -> run k s'.
Proof.
  intros R Ek Eo. inversion R; subst.
  - apply run_0; congruence.
  - eapply run_S; eauto; congruence.
Qed.

Lemma step_more f (st : state) x f' : f <= f' -> step prob f st = Ret x -> step prob f' st = Ret x.
Proof.
  intros L. unfold step. destruct (step_init (on_lp (push_ev (begin_ev st)) st)) as [s| |]; cbn [bind]; try discriminate.
  intros E.
  assert (forall g (s : state) ncf nef g' x, g <= g' -> step_loop prob g s (tn (nlp st)) ncf nef = Ret x ->
            step_loop prob g' s (tn (nlp st)) ncf nef = Ret x) as M.
  { clear. induction g as [|g IH]; intros s ncf nef g' x Hg E; [discriminate|].
    destruct g' as [|g']; [lia|]. cbn [step_loop] in *.
    destruct (attempt_step prob s (tn (nlp st)) ncf nef) as [[[[s1 c] m] r]| |]; cbn [bind] in *; try discriminate.
    destruct r as [[y|]|e]; auto. apply IH; [lia|exact E]. }
  destruct (step_loop prob f s (tn (nlp st)) 0 0) as [y| |] eqn:E1; cbn [bind] in E; try discriminate.
  rewrite (M f s 0 0 f' y L E1). exact E.
Qed.

Lemma run_inv k s : run (S k) s -> exists a fuel b r,
  run k a /\ ewt (nlp a) = ewt_set (row (phi a) 0) /\ ordok a /\
  step prob fuel a = Ret (b, r) /\ kcore s = kcore b /\ own (trace (lp (nlp s))) = own (trace (lp (nlp b))).
Proof. intros R. inversion R; subst. exists a, fuel, b, r. auto 10. Qed.

Lemma kcore_phi (a b : state) : kcore b = kcore a -> phi b = phi a.
Proof. intros E. apply kcore_fields in E. apply E. Qed.

Lemma run_det k : forall s s', run k s -> run k s' ->
  kcore s' = kcore s /\ own (trace (lp (nlp s'))) = own (trace (lp (nlp s))).
Proof.
  induction k as [|k IH]; intros s s' R R'.
  - inversion R; inversion R'; subst. split; congruence.
  - apply run_inv in R. apply run_inv in R'.
    destruct R as (a & f & b & r & Ra & Wa & Ca & Sa & Ka & Oa).
    destruct R' as (a' & f' & b' & r' & Ra' & Wa' & Ca' & Sa' & Ka' & Oa').
    destruct (IH a a' Ra Ra') as (Ek & Eo).
    pose proof (step_more f a _ (Nat.max f f') ltac:(lia) Sa) as Ta.
    pose proof (step_more f' a' _ (Nat.max f f') ltac:(lia) Sa') as Ta'.
    assert (ewt (nlp a') = ewt (nlp a)) as Ew by (rewrite Wa, Wa', (kcore_phi _ _ Ek); reflexivity).
    assert (length (cvals a') = length (cvals a)) as Ec by (rewrite (ordok_cvals _ Ca), (ordok_cvals _ Ca'); reflexivity).
    destruct (step_kern prob _ a a' _ _ Ek Ew Ec Ta) as (b2 & evs & Eb & K & T1 & T2 & _).
    rewrite Eb in Ta'. injection Ta' as E1 E2. subst.
    split; [congruence|]. rewrite Oa', Oa, T1, T2, !own_app, Eo. reflexivity.
Qed.

(** Longer runs extend shorter ones. *)
Lemma run_prefix d : forall k s s', run k s -> run (d + k) s' ->
  exists evs, own (trace (lp (nlp s'))) = evs ++ own (trace (lp (nlp s))).
Proof.
  induction d as [|d IH]; intros k s s' R R'.
  - exists []. destruct (run_det k s s' R R') as (_ & E). exact E.
  - cbn in R'. apply run_inv in R'. destruct R' as (a & f & b & r & Ra & Wa & Ca & Sa & Ka & Oa).
    destruct (IH k s a R Ra) as (evs & E).
    destruct (step_kern prob f a a _ _ eq_refl eq_refl eq_refl Sa) as (b' & ev2 & _ & _ & T1 & _).
    exists (own ev2 ++ evs). rewrite Oa, T1, own_app, E, app_assoc. reflexivity.
Qed.

(** What a run never changes. *)
Lemma kcore_outer (a b : state) : kcore b = kcore a -> tstop b = tstop a /\ h0u b = h0u a /\ nst b = nst a.
Proof. intros E. apply kcore_fields in E. repeat split; apply E. Qed.

Lemma run_keeps k : forall s, run k s -> tstop s = tstop st0 /\ h0u s = h0u st0 /\ (k = 0 -> nst s = nst st0).
Proof.
  induction k as [|k IH]; intros s R.
  - inversion R; subst. destruct (kcore_outer st0 s) as (A & B & C); [assumption|]. auto.
  - apply run_inv in R. destruct R as (a & f & b & r & Ra & Wa & Oa & Sa & Ka & _).
    destruct (IH a Ra) as (A & B & _). destruct (kcore_outer b s Ka) as (A' & B' & _).
    pose proof (step_spec prob (natural_lawful Hn) f a b r Oa Sa) as X.
    destruct (stepped_ord prob a b r Oa X) as (_ & _ & U & _).
    unfold outer in U. split; [congruence|]. split; [congruence|discriminate].
Qed.

End Run.

(** ** Lives *)

(** The first internal step succeeds: a call after which no step has been made
    was refused because of its arguments (or was no call of [solve]).  Without
    this, a first step that fails leaves the scaled derivative in the history
    and the next call scales it again. *)
Definition refused (rep : @reply T) : Prop :=
  match rep with
  | ReplySolve _ (Err (EIda (IllegalIn (ToutTooClose | StepNotTowardsTout | TstopBehind)))) => True
  | ReplySolve _ _ => False
  | ReplyUnit _ => True
  end.

Section Life.
Variable prob : problem T.
Variable c : @config T.
Variables yy0 yp0 : list T.

Notation n := (model_size prob).

(** The output time of the call that made the first step. *)
Definition first_tout (o : option T) (st st' : state) (k : @call T) : option T :=
  match k with
  | CallSolve tout _ _ => if (nst st =? 0) && negb (nst st' =? 0) then Some tout else o
  | _ => o
  end.

Inductive life : option T -> state -> Prop :=
| life_new st : ida_new prob yy0 yp0 = Ret st -> life None (configure c st)
| life_call fuel rfuel o st k st' rep :
    life o st -> api_call prob ewt_set fuel rfuel st k = Ret (st', rep) ->
    (nst st' = 0 -> refused rep) ->
    life (first_tout o st st' k) st'.

Lemma life_reach o st : life o st -> reach prob ewt_set c yy0 yp0 st.
Proof. induction 1; [apply reach_new; assumption|eapply reach_call; eauto]. Qed.

Hypothesis Hc : config_ok c.
Hypothesis Hts : g_tstop c = None.

(** The state the first step starts from, given its size; without roots. *)
Variable st00 : state.
Hypothesis H00 : ida_new (noroots prob) yy0 yp0 = Ret st00.
Definition base : state := configure (numerics c) st00.
Definition start (h : T) : state :=
  set_eps_newt (epcon base) (on_nlp (set_toldel (spt0001 * epcon base)%sc) (set_h0u h (set_hh h (set_setup_done true
    (set_phi (upd (phi base) 1 (vscale n h (row (phi base) 1))) base))))).

Definition pre (st : state) : state := set_eps_newt szero (set_h0u szero (set_hh szero (set_setup_done true st))).

(** The size of the first step for a given output time. *)
Definition first_size (tout h : T) : Prop :=
  exists s, first_step (set_hin (g_hin c) (on_nlp (set_ewt (ewt_set yy0)) base)) tout = Ret (inr s) /\ hh s = h.

Definition sound (o : option T) (st : state) : Prop :=
  (nst st = 0 -> kcore (pre st) = kcore (pre base) /\ own (trace (lp (nlp st))) = [] /\ hin st = g_hin c /\
     (setup_done st = true -> ewt (nlp st) = ewt_set yy0)) /\
  (nst st <> 0 -> (exists k, run (noroots prob) (start (h0u st)) (S k) st) /\
     exists tout, o = Some tout /\ first_size tout (h0u st)).

(** The step functions do not look at the root functions. *)
Lemma nlp_noroots : @ida_nlproblem T LSt _ _ (noroots prob) = ida_nlproblem prob.
Proof.
  unfold ida_nlproblem.
  assert (@lp_setup T LSt _ _ (noroots prob) = lp_setup prob) as E1 by reflexivity.
  assert (@lp_solve T LSt _ _ (noroots prob) = lp_solve prob) as E2 by reflexivity.
  unfold nlp_setup, nlp_solve. rewrite E1, E2. reflexivity.
Qed.
Lemma nonlinear_noroots : @nonlinear_solve T LSt NSt _ _ _ (noroots prob) = nonlinear_solve prob.
Proof. unfold nonlinear_solve. rewrite nlp_noroots. reflexivity. Qed.
Lemma set_coeffs_noroots : @set_coeffs T LSt NSt _ (noroots prob) = set_coeffs prob.
Proof.
  assert (@scale_phi T LSt NSt _ (noroots prob) = scale_phi prob) as E by reflexivity.
  unfold set_coeffs. rewrite E. reflexivity.
Qed.
Lemma try_noroots : @try_step T LSt NSt _ _ _ (noroots prob) = try_step prob.
Proof.
  assert (@predict T LSt NSt _ (noroots prob) = predict prob) as E1 by reflexivity.
  assert (@test_error T LSt NSt _ (noroots prob) = test_error prob) as E2 by reflexivity.
  unfold try_step. rewrite nonlinear_noroots, set_coeffs_noroots, E1, E2. reflexivity.
Qed.
Lemma attempt_noroots : @attempt_step T LSt NSt _ _ _ (noroots prob) = attempt_step prob.
Proof.
  assert (@restore T LSt NSt _ (noroots prob) = restore prob) as E1 by reflexivity.
  assert (@reset T LSt NSt _ (noroots prob) = reset prob) as E2 by reflexivity.
  unfold attempt_step. rewrite try_noroots, E1, E2. reflexivity.
Qed.
Lemma loop_noroots : @step_loop T LSt NSt _ _ _ (noroots prob) = step_loop prob.
Proof. unfold step_loop. rewrite attempt_noroots. reflexivity. Qed.
Lemma complete_noroots : @complete_step T LSt NSt _ (noroots prob) = complete_step prob.
Proof.
  assert (@choose_order T LSt NSt _ (noroots prob) = choose_order prob) as E1 by reflexivity.
  assert (@update_phi T LSt NSt _ (noroots prob) = update_phi prob) as E2 by reflexivity.
  unfold complete_step. rewrite E1, E2. reflexivity.
Qed.
Lemma step_noroots fuel (st : state) : step (noroots prob) fuel st = step prob fuel st.
Proof. unfold step. rewrite loop_noroots, complete_noroots. reflexivity. Qed.

Lemma first_cong (a b : state) tout s :
  tn (nlp b) = tn (nlp a) -> hin b = hin a -> phi b = phi a -> idv b = idv a -> ewt (nlp b) = ewt (nlp a) ->
  suppressalg b = suppressalg a -> hmax_inv b = hmax_inv a -> tstop b = tstop a ->
  first_step a tout = Ret (inr s) -> exists s', first_step b tout = Ret (inr s') /\ hh s' = hh s.
Proof.
  intros E1 E2 E3 E4 E5 E6 E7 E8. unfold first_step.
  cbn [tn nlp hin phi idv ewt suppressalg hmax_inv tstop hh set_hh]. rewrite E1, E2.
  destruct (_ =? szero)%sc; [discriminate|].
  destruct (_ <? _)%sc; [discriminate|].
  destruct (sneqb (hin a) szero && ((tout - tn (nlp a)) * hin a <? szero)%sc); [discriminate|].
  assert (forall h1 : T, 
    (let rh := (sabs h1 * hmax_inv a)%sc in
     let st := if (sone <? rh)%sc then set_hh (h1 / rh)%sc (set_hh h1 a) else set_hh h1 a in
     match tstop st with
     | Some ts => if ((ts - tn (nlp st)) * hh st <=? szero)%sc then Ret (inl (st, TstopBehind)) else Ret (inr (limit_to_tstop st ts))
     | None => Ret (inr st)
     end) = Ret (inr s) ->
    exists s', 
    (let rh := (sabs h1 * hmax_inv b)%sc in
     let st := if (sone <? rh)%sc then set_hh (h1 / rh)%sc (set_hh h1 b) else set_hh h1 b in
     match tstop st with
     | Some ts => if ((ts - tn (nlp st)) * hh st <=? szero)%sc then Ret (inl (st, TstopBehind)) else Ret (inr (limit_to_tstop st ts))
     | None => Ret (inr st)
     end) = Ret (inr s') /\ hh s' = hh s) as X.
  { intros h1. cbv zeta. rewrite E7. set (h2 := if (sone <? sabs h1 * hmax_inv a)%sc then (h1 / (sabs h1 * hmax_inv a))%sc else h1).
    replace (if (sone <? sabs h1 * hmax_inv a)%sc then set_hh (h1 / (sabs h1 * hmax_inv a))%sc (set_hh h1 a) else set_hh h1 a)
      with (set_hh h2 a) by (unfold h2; destruct (sone <? _)%sc; reflexivity).
    replace (if (sone <? sabs h1 * hmax_inv a)%sc then set_hh (h1 / (sabs h1 * hmax_inv a))%sc (set_hh h1 b) else set_hh h1 b)
      with (set_hh h2 b) by (unfold h2; destruct (sone <? _)%sc; reflexivity).
    cbn [tstop set_hh nlp hh]. rewrite E8, E1. destruct (tstop a) as [ts|].
    - destruct (_ <=? szero)%sc; [discriminate|]. intros E. injection E as <-. eexists. split; [reflexivity|].
      unfold limit_to_tstop. cbn [nlp hh set_hh]. rewrite E1. destruct (szero <? _)%sc; reflexivity.
    - intros E. injection E as <-. eexists. split; reflexivity. }
  destruct (hin a =? szero)%sc.
  2:{ cbn [bind]. exact (X (hin a)). }
  cbn [bind phi set_hh idv nlp ewt suppressalg hh]. rewrite E3. destruct (aget (phi a) 1) as [p1| |]; cbn [bind]; try discriminate.
  rewrite E4, E5, E6.
  set (h0 := (spt001 * sabs (tout - tn (nlp a)))%sc).
  set (nn := wrms_norm (idv a) p1 (ewt (nlp a)) (suppressalg a)).
  intros E. destruct (X (let h := if (stwo / h0 <? nn)%sc then (shalf / nn)%sc else h0 in
     if (tout <? tn (nlp a))%sc then (- h)%sc else h)) as (s' & Es & Eh).
  - rewrite <- E. cbv zeta. destruct (stwo / h0 <? nn)%sc; cbn [nlp set_hh]; destruct (tout <? tn (nlp a))%sc; reflexivity.
  - exists s'. split; [|exact Eh]. rewrite <- Es. cbv zeta.
    destruct (stwo / h0 <? nn)%sc; cbn [nlp set_hh]; rewrite ?E1; destruct (tout <? tn (nlp a))%sc; reflexivity.
Qed.

Lemma new_kcore st : ida_new prob yy0 yp0 = Ret st -> kcore (configure c st) = kcore base /\ 
  hin (configure c st) = g_hin c /\ trace (lp (nlp (configure c st))) = [] /\ setup_done (configure c st) = false.
Proof.
  unfold base. revert H00. unfold ida_new. change (model_size (noroots prob)) with n.
  destruct ((length yy0 =? n) && (length yp0 =? n)); [|discriminate].
  intros E0 E. injection E0 as <-. injection E as <-. repeat split.
Qed.

Lemma base_facts : phi base = yy0 :: yp0 :: repeat (vzero n) 4 /\ tstop base = None /\ nst base = 0 /\
  kk base = 0 /\ kused base = 0.
Proof.
  unfold base. revert H00. unfold ida_new. change (model_size (noroots prob)) with n.
  destruct ((length yy0 =? n) && (length yp0 =? n)); [|discriminate].
  intros E0. injection E0 as <-. cbn. rewrite Hts. auto.
Qed.

Lemma pre_fields (st : state) : kcore (pre st) = kcore (pre base) ->
  phi st = phi base /\ tstop st = None /\ nst st = 0 /\ tn (nlp st) = tn (nlp base) /\ idv st = idv base /\
  suppressalg st = suppressalg base /\ hmax_inv st = hmax_inv base /\ epcon st = epcon base.
Proof.
  destruct base_facts as (_ & Et & En & _). revert Et En. generalize base. intros b Et En E. apply kcore_fields in E.
  destruct E as ((K1 & K2 & K3 & K4 & K5 & K6 & K7) & K8 & _).
  destruct K1 as (_ & _ & K1). destruct K2 as (K2 & _). destruct K3 as (_ & K3 & _ & K3'). destruct K6 as (K6 & _ & _ & _ & K6').
  destruct K7 as (K7 & _). destruct K8 as (_ & _ & _ & K8 & _).
  split; [exact K2|]. split; [exact (eq_trans K3' Et)|]. split; [exact (eq_trans K7 En)|]. split; [exact K8|].
  split; [exact K3|]. split; [exact K1|]. split; [exact K6'|exact K6].
Qed.

(** The first-call block on an object that has not stepped. *)
Lemma first_call_shape (a : state) tout x : 1 < length (phi a) -> first_call prob ewt_set a tout = Ret x ->
  exists a1 h, a1 = (if setup_done a then a else set_setup_done true (on_nlp (set_ewt (ewt_set (row (phi a) 0))) a)) /\
  match x with
  | inl (s, _) => s = set_hh h a1
  | inr s => first_step a1 tout = Ret (inr (set_hh h a1)) /\
      exists s4, rsame (set_kused 0 (set_kk 0 (set_h0u h (set_hh h a1)))) s4 /\
      (exists evs, trace (lp (nlp s4)) = evs ++ trace (lp (nlp a1)) /\ Forall (fun e => is_root e = true) evs) /\
      s = on_nlp (set_toldel (spt0001 * epcon a1)%sc) (set_eps_newt (epcon a1)
            (set_phi (upd (phi a1) 1 (vscale n h (row (phi a1) 1))) s4))
  end.
Proof.
  intros Hp E. unfold first_call in E. apply bind_ret_inv in E. destruct E as (a1 & E1 & E).
  assert (a1 = (if setup_done a then a else set_setup_done true (on_nlp (set_ewt (ewt_set (row (phi a) 0))) a))) as Ea.
  { destruct (setup_done a); [injection E1 as <-; reflexivity|].
    unfold initial_setup in E1. rewrite (aget_ret _ _ []) in E1 by lia. cbn in E1. injection E1 as <-. reflexivity. }
  exists a1. assert (1 < length (phi a1)) as Hp1 by (rewrite Ea; destruct (setup_done a); exact Hp).
  apply bind_ret_inv in E. destruct E as (r & E2 & E).
  pose proof (first_step_frame a1 tout r E2) as F. destruct r as [[e m]|s1].
  - destruct F as (h & ->). injection E as <-. exists h. split; [exact Ea|reflexivity].
  - destruct F as (h & ->). exists h. split; [exact Ea|].
    apply bind_ret_inv in E. destruct E as (s4 & E4 & E).
    assert (rsame (set_kused 0 (set_kk 0 (set_h0u h (set_hh h a1)))) s4 /\
      (exists evs, trace (lp (nlp s4)) = evs ++ trace (lp (nlp a1)) /\ Forall (fun e => is_root e = true) evs)) as (R1 & R2).
    { match type of E4 with (if ?q then _ else _) = _ => destruct q end.
      - apply r_check1_frame in E4. destruct E4 as (R & _ & evs & Tr & Fe & _). split; [exact R|]. exists evs. split; [exact Tr|exact Fe].
      - injection E4 as <-. split; [repeat split|]. exists []. split; [reflexivity|constructor]. }
    pose proof R1 as (RC & _). apply core_fields in RC. cbn in RC.
    assert (phi s4 = phi a1) as Ep4 by apply RC.
    assert (hh s4 = h) as Eh4 by apply RC.
    assert (epcon s4 = epcon a1) as Ee4.
    { assert (cfg s4 = cfg a1) as Cf by apply RC. unfold cfg in Cf. injection Cf. intros. assumption. }
    rewrite Ep4 in E. rewrite (aget_ret _ _ []) in E by exact Hp1. cbn [bind] in E.
    rewrite aset_ret in E by exact Hp1. cbn [bind] in E. rewrite Eh4 in E.
    destruct x as [x|x]; [discriminate|]. injection E as <-.
    split; [exact E2|]. exists s4. split; [exact R1|]. split; [exact R2|].
    cbn [epcon eps_newt set_eps_newt set_phi]. rewrite Ee4. reflexivity.
Qed.

Lemma rsame_kcore (a b : state) : rsame a b -> kcore b = kcore a.
Proof.
  intros (C & Et & _). unfold core, cfg in C. cbv zeta in C. injection C. intros. clear C.
  unfold kcore. cbv zeta. repeat match goal with H : ?x = ?y |- _ => match type of x with LSolver _ _ => fail 1 | _ => rewrite H; clear H end end.
  reflexivity.
Qed.

Ltac split_all := repeat match goal with H : _ /\ _ |- _ => destruct H end.

Lemma kcore_set_phi (a b : state) v w z : kcore b = kcore a ->
  kcore (on_nlp (set_toldel z) (set_eps_newt w (set_phi v b))) = kcore (on_nlp (set_toldel z) (set_eps_newt w (set_phi v a))).
Proof.
  intros E. apply kcore_fields in E. cbv zeta in E. split_all.
  unfold kcore. cbn [setup_done constraints_set suppressalg phi psi alpha beta sigma gamma delta idv ee tstop kk kused knew phase ns
    h0u hh hused rr cjlast eps_newt epcon maxncf maxnef maxord hmax_inv nst ncfn netf nls nlp on_nlp set_nlp set_toldel set_eps_newt set_phi
    yypredict yppredict savres tn ss oldnrm toldel nre nsetups lp].
  repeat match goal with H : _ = _ |- _ => rewrite H; clear H end. reflexivity.
Qed.

Lemma pre_start (a b : state) h v : kcore (pre a) = kcore (pre b) -> kk b = 0 -> kused b = 0 ->
  kcore (on_nlp (set_toldel (spt0001 * epcon a)%sc) (set_eps_newt (epcon a) (set_phi v
     (set_kused 0 (set_kk 0 (set_h0u h (set_hh h (set_setup_done true a)))))))) =
  kcore (set_eps_newt (epcon b) (on_nlp (set_toldel (spt0001 * epcon b)%sc) (set_h0u h (set_hh h (set_setup_done true
    (set_phi v b)))))).
Proof.
  intros E Ek Eu. apply kcore_fields in E. unfold pre in E.
  cbn [setup_done constraints_set suppressalg phi psi alpha beta sigma gamma delta idv ee tstop kk kused knew phase ns
    h0u hh hused rr cjlast eps_newt epcon maxncf maxnef maxord hmax_inv nst ncfn netf nls nlp set_hh set_h0u set_setup_done set_eps_newt] in E.
  cbv zeta in E. split_all.
  unfold kcore. cbn [setup_done constraints_set suppressalg phi psi alpha beta sigma gamma delta idv ee tstop kk kused knew phase ns
    h0u hh hused rr cjlast eps_newt epcon maxncf maxnef maxord hmax_inv nst ncfn netf nls nlp on_nlp set_nlp set_toldel set_eps_newt set_phi
    set_hh set_h0u set_setup_done set_kk set_kused
    yypredict yppredict savres tn ss oldnrm toldel nre nsetups lp].
  repeat match goal with H : _ = _ |- _ => rewrite H; clear H end. reflexivity.
Qed.

Lemma pre_ewt (a : state) w : kcore (pre (set_setup_done true (on_nlp (set_ewt w) a))) = kcore (pre a).
Proof. reflexivity. Qed.
Lemma pre_hh (a : state) h : kcore (pre (set_hh h a)) = kcore (pre a).
Proof. reflexivity. Qed.
Lemma shape_h0u (s : state) v w z : h0u (on_nlp (set_toldel z) (set_eps_newt w (set_phi v s))) = h0u s.
Proof. reflexivity. Qed.
Lemma shape_nst (s : state) v w z : nst (on_nlp (set_toldel z) (set_eps_newt w (set_phi v s))) = nst s.
Proof. reflexivity. Qed.
Lemma shape_tstop (s : state) v w z : tstop (on_nlp (set_toldel z) (set_eps_newt w (set_phi v s))) = tstop s.
Proof. reflexivity. Qed.
Lemma shape_ewt (s : state) v w z : ewt (nlp (on_nlp (set_toldel z) (set_eps_newt w (set_phi v s)))) = ewt (nlp s).
Proof. reflexivity. Qed.
Lemma shape_phi (s : state) v w z : phi (on_nlp (set_toldel z) (set_eps_newt w (set_phi v s))) = v.
Proof. reflexivity. Qed.

Lemma first_cong' (a b : state) tout h v w : tn (nlp b) = tn (nlp a) -> v = hin a -> phi b = phi a -> idv b = idv a ->
  w = ewt (nlp a) -> suppressalg b = suppressalg a -> hmax_inv b = hmax_inv a -> tstop b = tstop a ->
  first_step a tout = Ret (inr (set_hh h a)) ->
  exists s, first_step (set_hin v (on_nlp (set_ewt w) b)) tout = Ret (inr s) /\ hh s = h.
Proof.
  intros. set (b' := set_hin v (on_nlp (set_ewt w) b)).
  assert (tn (nlp b') = tn (nlp b) /\ hin b' = v /\ phi b' = phi b /\ idv b' = idv b /\ ewt (nlp b') = w /\ suppressalg b' = suppressalg b /\
    hmax_inv b' = hmax_inv b /\ tstop b' = tstop b) as (B1 & B2 & B3 & B4 & B5 & B6 & B7 & B8) by (repeat split).
  clearbody b'.
  destruct (first_cong a b' tout (set_hh h a)) as (s2 & E3 & E4); try congruence.
  exists s2. split; [exact E3|]. rewrite E4. reflexivity.
Qed.

Lemma first_sound (a : state) tout x : sound None a -> nst a = 0 ->
  first_call prob ewt_set a tout = Ret x ->
  match x with
  | inl (s, _) => sound None s
  | inr s => run (noroots prob) (start (h0u s)) 0 s /\ first_size tout (h0u s) /\
             nst s = 0 /\ ewt (nlp s) = ewt_set (row (phi s) 0) /\ tstop s = None
  end.
Proof.
  intros (Ha & _) Na E. destruct (Ha Na) as (Ek & Eo & Eh & Ew).
  destruct (pre_fields a Ek) as (Ep & Et & _ & Etn & Eid & Esu & Ehm & Eep).
  destruct base_facts as (Bp & Bt & Bn & Bk & Bu).
  apply first_call_shape in E; [|rewrite Ep, Bp; cbn; lia].
  destruct E as (a1 & h & Ea & E).
  assert (row (phi a) 0 = yy0) as Er by (rewrite Ep, Bp; reflexivity).
  assert (kcore (pre a1) = kcore (pre base) /\ own (trace (lp (nlp a1))) = [] /\ hin a1 = g_hin c /\ ewt (nlp a1) = ewt_set yy0 /\
    nst a1 = 0 /\ set_setup_done true a1 = a1)
    as (Ek1 & Eo1 & Eh1 & Ew1 & En1 & Es1).
  { rewrite Ea. destruct (setup_done a) eqn:Es.
    - split; [exact Ek|]. split; [exact Eo|]. split; [exact Eh|]. split; [apply Ew; reflexivity|]. split; [exact Na|].
      destruct a. cbn in Es. rewrite Es. reflexivity.
    - rewrite Er. split; [rewrite pre_ewt; exact Ek|]. split; [exact Eo|]. split; [exact Eh|]. split; [reflexivity|]. split; [exact Na|reflexivity]. }
  destruct x as [[s m]|s].
  - subst s. split.
    + intros _. split; [rewrite pre_hh; exact Ek1|]. split; [exact Eo1|]. split; [exact Eh1|]. intros _. exact Ew1.
    + intros Hz. exfalso. exact (Hz En1).
  - destruct E as (E2 & s4 & R & (evs & Tr & Fe) & ->).
    pose proof (rsame_kcore _ _ R) as K4. destruct R as (RC & Ret & _ & _ & _ & Rew & _).
    destruct (pre_fields a1 Ek1) as (Ep1 & Et1 & _ & Etn1 & Eid1 & Esu1 & Ehm1 & Eep1).
    assert (h0u s4 = h) as E4h by (apply kcore_fields in K4; apply K4).
    rewrite shape_h0u, shape_nst, shape_tstop, shape_ewt, shape_phi, E4h.
    split; [|split; [|split; [|split]]].
    + apply run_0.
      * rewrite (kcore_set_phi _ _ _ _ _ K4). 
        pose proof (pre_start a1 base h (upd (phi a1) 1 (vscale n h (row (phi a1) 1))) Ek1 Bk Bu) as PS. rewrite Es1 in PS.
        rewrite PS. unfold start. rewrite Ep1. reflexivity.
      * cbn [nlp on_nlp set_nlp set_eps_newt set_phi lp set_toldel]. rewrite Tr, own_app, Eo1, app_nil_r. apply own_none.
        eapply Forall_impl; [|exact Fe]. intros e He. cbn in He. rewrite He. reflexivity.
    + unfold first_size. apply (first_cong' a1 base); [exact (eq_sym Etn1)|exact (eq_sym Eh1)|exact (eq_sym Ep1)|exact (eq_sym Eid1)|exact (eq_sym Ew1)|exact (eq_sym Esu1)|
         exact (eq_sym Ehm1)|exact (eq_trans Bt (eq_sym Et1))|exact E2].
    + apply kcore_fields in K4. assert (nst s4 = nst a1) as -> by apply K4. exact En1.
    + rewrite Rew, Ep1, Bp. exact Ew1.
    + rewrite Ret. exact Et1.
Qed.

End Life.
End Runs.
