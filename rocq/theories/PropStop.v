(** * PropStop: rejected calls, repeated output times, stop time consumption and
      the accuracy check: C17, C50, C51, C52, C54
      (src/impl_solve.rs, src/impl_stop_test.rs, src/lib.rs) *)
Require Import List Arith Bool Lia Reals Lra Psatz Floats.
Import ListNotations.
Require Import Verif.Base Verif.Scalar Verif.ScalarR Verif.ScalarF Verif.Norms Verif.Newton Verif.NewtonSpec Verif.IdaState
  Verif.IdaNls Verif.IdaCore Verif.IdaRoots Verif.IdaSolve Verif.IdaIo Verif.BaseFacts Verif.NewtonFacts
  Verif.IdaFacts Verif.IdaLoops Verif.IdaStep Verif.IdaSpec Verif.IdaShell Verif.IdaReach Verif.IdaInv
  Verif.IdaCount Verif.IdaLife Verif.IdaTrace Verif.IdaStepR Verif.IdaSafe Verif.IdaInterp Verif.IdaCall Verif.IdaCallR
  Verif.Script Verif.Witness Verif.PropSafe Verif.PropSolve Verif.ExampleR Verif.PropStepR.
Open Scope nat_scope.

Section AnyScalar.
Context {T LSt NSt : Type} `{Scalar T} `{LSolver T LSt} `{NLSolver T NSt}.
Variable prob : problem T.
Variable ewt_set : list T -> list T.
Notation n := (model_size prob).
Notation state := (ida T LSt NSt).
Notation tr st := (trace (lp (nlp st))).

(** ** A later call without root functions *)
(** The state in which the stop test runs. *)
Definition asked (st : state) (tout : T) (itask : task) : state :=
  on_lp (fun l => set_nwarn 0 (set_ncfl0 (ncfl l) (set_ncfn0 (ncfn st) (set_nni0 (nni st) (set_nst0 (nst st) l)))))
    (task_set st tout itask).

Lemma later_eq fuel rfuel (st : state) tout tret itask : nst st <> 0 -> nrtfn st = 0 ->
  solve prob ewt_set fuel rfuel st tout tret itask =
  let* (s, t, r) := stop_test1 prob (asked st tout itask) tout tret itask in
  match r with
  | Ok ContinueSteps => solve_loop prob ewt_set fuel rfuel s tout t itask 0
  | _ => Ret (s, t, r)
  end.
Proof.
  intros Hz Hn. unfold solve. cbv zeta.
  change (set_taskc itask match itask with Normal => set_toutc tout st | OneStep => st end) with (task_set st tout itask).
  assert (A1 : nst (task_set st tout itask) = nst st) by (destruct itask; reflexivity).
  assert (A2 : nrtfn (task_set st tout itask) = nrtfn st) by (destruct itask; reflexivity).
  assert (A3 : nni (task_set st tout itask) = nni st /\ ncfn (task_set st tout itask) = ncfn st) by (destruct itask; auto).
  destruct A3 as (A3 & A4).
  rewrite A1. rewrite (proj2 (Nat.eqb_neq _ _) Hz). cbn [bind]. unfold ls_perf. cbn [negb]. cbn [bind].
  rewrite A1, A3, A4.
  match goal with |- context [on_lp (fun _ => ?l) (task_set st tout itask)] =>
    change (on_lp (fun _ => l) (task_set st tout itask)) with (asked st tout itask) end.
  assert (B1 : nst (asked st tout itask) = nst st) by (destruct itask; reflexivity).
  assert (B2 : nrtfn (asked st tout itask) = nrtfn st) by (destruct itask; reflexivity).
  rewrite B1. assert (Hp : (0 <? nst st) = true) by (apply Nat.ltb_lt; lia). rewrite Hp.
  unfold later_call. rewrite B2, Hn. cbn [Nat.ltb Nat.leb bind].
  destruct (stop_test1 prob (asked st tout itask) tout tret itask) as [((s & t) & r)| |]; cbn [bind]; try reflexivity.
  destruct r as [[]|]; reflexivity.
Qed.

Definition unmoved (st st' : state) : Prop :=
  tr st' = tr st /\ phi st' = phi st /\ psi st' = psi st /\ nst st' = nst st /\
  get_current_time st' = get_current_time st /\ get_current_setp st' = get_current_setp st /\
  get_yy st' = get_yy st /\ get_yp st' = get_yp st.

(** ** C51 *)
Lemma again fuel rfuel (st : state) tout tret : nst st <> 0 -> nrtfn st = 0 -> past_tstop st = false ->
  (tout =? tretlast st)%sc = true ->
  exists st', solve prob ewt_set fuel rfuel st tout tret Normal = Ret (st', tout, Ok Success) /\ unmoved st st' /\ tretlast st' = tout.
Proof.
  intros Hz Hn Hp Ht. rewrite later_eq by assumption. unfold stop_test1.
  change (past_tstop (asked st tout Normal)) with (past_tstop st).
  unfold past_tstop in Hp. change (tstop (asked st tout Normal)) with (tstop st).
  change (tn (nlp (asked st tout Normal))) with (tn (nlp st)). change (hh (asked st tout Normal)) with (hh st).
  change (tretlast (asked st tout Normal)) with (tretlast st). cbv zeta. rewrite Hp, Ht. cbn [bind].
  eexists. split; [reflexivity|]. split; [|reflexivity]. repeat split.
Qed.
Lemma success_nst : @nls_lawful T NSt _ -> forall c yy0 yp0 (st : state) fuel rfuel tout tret itask st' t x,
  config_ok c -> reach prob ewt_set c yy0 yp0 st ->
  solve prob ewt_set fuel rfuel st tout tret itask = Ret (st', t, Ok x) -> nst st' <> 0.
Proof.
  intros Hl c yy0 yp0 st fuel rfuel tout tret itask st' t x Hc Hr E.
  pose proof (reach_ord prob ewt_set Hl c yy0 yp0 st Hc Hr) as O.
  destruct (solve_run _ _ _ _ _ _ _ _ _ _ _ E) as [A|(s0 & s & nl & m & En & Lo & F)].
  - rewrite (answers_nst _ _ _ _ _ _ _ _ _ _ A). unfold answers in A.
    pose proof (task_set_shell prob st tout itask) as S0.
    destruct (solve_start_cases _ _ _ _ _ _ _ _ A) as [(Hz & s & m & X & Q)|[(Hz & s & l & _ & _ & _ & _ & Q)|(Hz & _)]]; try discriminate.
    rewrite <- (shell_nst _ _ _ S0). exact Hz.
  - pose proof (enters_head _ _ _ _ _ _ _ _ En) as Hd.
    destruct (ends_nst prob ewt_set Hl _ _ _ _ _ _ _ _ _ _ _ _ O Hd Lo F) as (Hn & _).
    remember (Ok x) as r eqn:Er.
    destruct F as [st' t r Ep|s1 s2 e st' t r Ep Es Ef|s1 s2 u st' t r Ep Es Ef Hr2].
    + apply pre_step_shell in Ep. destruct Ep as (_ & _ & [(Q & _)|(_ & [Q|Q])]); congruence.
    + apply step_failed_shell in Ef. destruct Ef as (_ & Q & _). congruence.
    + lia.
Qed.

Lemma reach_nrtfn : @nls_lawful T NSt _ -> forall c yy0 yp0 (st : state),
  config_ok c -> reach prob ewt_set c yy0 yp0 st -> nrtfn st = num_roots prob.
Proof.
  intros Hl c yy0 yp0 st Hc Hr. pose proof (reach_tlink prob ewt_set Hl c Hc yy0 yp0 st Hr) as Lk.
  pose proof (tl_cfg _ _ _ _ Lk) as Q. unfold cfg_is in Q. tauto.
Qed.

(** No program sets a stop time (C68); with one set, see [C51_same_tout_R]. *)
Theorem C51_same_tout : @nls_lawful T NSt _ -> forall c yy0 yp0 (st : state) fuel rfuel tout tret st' t,
  config_ok c -> g_tstop c = None -> num_roots prob = 0 -> (tout =? tout)%sc = true ->
  reach prob ewt_set c yy0 yp0 st ->
  solve prob ewt_set fuel rfuel st tout tret Normal = Ret (st', t, Ok Success) ->
  forall fuel' rfuel' tret', exists st'',
    solve prob ewt_set fuel' rfuel' st' tout tret' Normal = Ret (st'', tout, Ok Success) /\ unmoved st' st''.
Proof.
  intros Hl c yy0 yp0 st fuel rfuel tout tret st' t Hc Hs Hnr Hre Hr E fuel' rfuel' tret'.
  destruct (C45_path prob ewt_set Hl c yy0 yp0 st fuel rfuel tout tret st' t Hc Hr E) as (_ & Ht & _).
  pose proof (success_nst Hl _ _ _ _ _ _ _ _ _ _ _ _ Hc Hr E) as Hz.
  assert (Hr' : reach prob ewt_set c yy0 yp0 st') by (eapply reach_next; eassumption).
  pose proof (reach_tlink prob ewt_set Hl c Hc yy0 yp0 st' Hr') as Lk.
  assert (Ts : tstop st' = None) by (destruct (tl_tstop _ _ _ _ Lk); congruence).
  pose proof (reach_nrtfn Hl _ _ _ _ Hc Hr') as Hn. rewrite Hnr in Hn.
  destruct (again fuel' rfuel' st' tout tret') as (st'' & E1 & E2 & _); auto.
  - unfold past_tstop. rewrite Ts. reflexivity.
  - rewrite Ht. exact Hre.
  - eauto.
Qed.

(** ** C17 *)
(** The test for an output time too close to the current time. *)
Definition too_close (t0 tout : T) : bool :=
  (sabs (tout - t0) =? szero)%sc || (sabs (tout - t0) <? stwo * seps * (sabs t0 + sabs tout))%sc.

(** The state with error weights. *)
Definition weighed (st : state) : state :=
  set_setup_done true (on_nlp (set_ewt (if setup_done st then ewt (nlp st) else ewt_set (row (phi st) 0))) st).

Lemma setup_eq (st : state) : length (phi st) = 6 ->
  (if setup_done st then Ret st else let* s := initial_setup ewt_set st in Ret (set_setup_done true s)) = Ret (weighed st).
Proof.
  intros Hl. unfold weighed. destruct (setup_done st) eqn:Es.
  - f_equal. destruct st as [? ? ? ? ? ? ? ? ? ? ? ? ? ? ? ? ? ? ? ? ? ? ? ? ? ? ? ? ? ? ? ? ? ? ? ? ? ? ? ? ? ? ? ? ? ? ? ? ? ? ? ? ? ? ? ? nlp0].
    destruct nlp0. cbn in *. subst. reflexivity.
  - unfold initial_setup. rewrite (aget_ret _ _ []) by lia. reflexivity.
Qed.

Lemma first_call_weighed (st : state) tout : length (phi st) = 6 ->
  first_call prob ewt_set (weighed st) tout = first_call prob ewt_set st tout.
Proof.
  intros Hl. unfold first_call. rewrite setup_eq by exact Hl. rewrite setup_eq by exact Hl. reflexivity.
Qed.

Lemma too_close_first (st : state) tout : too_close (tn (nlp st)) tout = true -> length (phi st) = 6 ->
  first_call prob ewt_set st tout = Ret (inl (weighed st, ToutTooClose)).
Proof.
  intros Hc Hl. unfold first_call. rewrite setup_eq by exact Hl. cbn [bind]. set (s := weighed st). unfold first_step.
  change (tn (nlp s)) with (tn (nlp st)). unfold too_close in Hc. cbv zeta.
  destruct (sabs (tout - tn (nlp st)) =? szero)%sc; [reflexivity|]. cbn [orb] in Hc. rewrite Hc. reflexivity.
Qed.

(** A state reached before any step was completed. *)
Theorem C17_too_close : @nls_lawful T NSt _ -> forall c yy0 yp0 (st : state) tout,
  config_ok c -> reach prob ewt_set c yy0 yp0 st -> steps (tr st) = [] -> too_close (get_current_time st) tout = true ->
  forall fuel rfuel tret itask, exists st1,
    solve prob ewt_set fuel rfuel st tout tret itask = Ret (st1, tret, Err (EIda (IllegalIn ToutTooClose))) /\
    unmoved st st1 /\
    (forall fuel' rfuel' tout2 tret2 itask2, itask = OneStep \/ itask2 = Normal ->
       solve prob ewt_set fuel' rfuel' st1 tout2 tret2 itask2 = solve prob ewt_set fuel' rfuel' st tout2 tret2 itask2) /\
    (forall fuel' rfuel' tout2 tret2, itask = Normal ->
       solve prob ewt_set fuel' rfuel' st1 tout2 tret2 OneStep =
       solve prob ewt_set fuel' rfuel' (set_toutc tout st) tout2 tret2 OneStep).
Proof.
  intros Hl c yy0 yp0 st tout Hc Hr Hs Ht fuel rfuel tret itask.
  pose proof (reach_ord prob ewt_set Hl c yy0 yp0 st Hc Hr) as ((L6 & _) & _).
  pose proof (reach_tlink prob ewt_set Hl c Hc yy0 yp0 st Hr) as Lk.
  assert (Hz : nst st = 0) by (rewrite <- (tl_n _ _ _ _ Lk), Hs; reflexivity).
  assert (Go : forall s x fuel' rfuel' tout2 tret2 itask2, nst s = 0 -> nst x = 0 -> length (phi x) = 6 ->
     task_set s tout2 itask2 = weighed (task_set x tout2 itask2) ->
     solve prob ewt_set fuel' rfuel' s tout2 tret2 itask2 = solve prob ewt_set fuel' rfuel' x tout2 tret2 itask2).
  { intros s x fuel' rfuel' tout2 tret2 itask2 Z1 Z2 Lx Eq. unfold solve. cbv zeta.
    change (set_taskc itask2 match itask2 with Normal => set_toutc tout2 s | OneStep => s end) with (task_set s tout2 itask2).
    change (set_taskc itask2 match itask2 with Normal => set_toutc tout2 x | OneStep => x end) with (task_set x tout2 itask2).
    assert (W : nst (task_set s tout2 itask2) = 0) by (destruct itask2; exact Z1).
    assert (W' : nst (task_set x tout2 itask2) = 0) by (destruct itask2; exact Z2).
    rewrite W, W'. cbn [Nat.eqb]. rewrite Eq, first_call_weighed; [reflexivity|]. destruct itask2; exact Lx. }
  exists (weighed (task_set st tout itask)). split; [|split; [|split]].
  - unfold solve. cbv zeta.
    change (set_taskc itask match itask with Normal => set_toutc tout st | OneStep => st end) with (task_set st tout itask).
    assert (W : nst (task_set st tout itask) = 0) by (destruct itask; exact Hz).
    rewrite W. cbn [Nat.eqb]. rewrite too_close_first; [reflexivity| |]; destruct itask; assumption.
  - destruct itask; repeat split.
  - intros fuel' rfuel' tout2 tret2 itask2 Hi. apply Go; [destruct itask; exact Hz|exact Hz|exact L6|].
    destruct Hi as [-> | ->]; [destruct itask2; reflexivity|destruct itask; reflexivity].
  - intros fuel' rfuel' tout2 tret2 ->. apply Go; [exact Hz|exact Hz|exact L6|]. reflexivity.
Qed.
(** ** C54 *)
(** A predicate kept by everything a call does. *)
Lemma solve_walk (P : state -> Prop) :
  (forall a b, P a -> shell prob a b -> P b) -> (forall a b, P a -> lims a b -> P b) ->
  (forall a tout x, P a -> first_call prob ewt_set a tout = Ret x -> P (match x with inl (s, _) => s | inr s => s end)) ->
  forall fuel rfuel st tout tret itask st' t r,
  (forall s nl s1 f s2 rs, P s -> pieces prob ewt_set st s -> pre_step prob ewt_set s tret nl = Ret (inr s1) ->
     step prob f s1 = Ret (s2, rs) -> P s2) ->
  P st -> solve prob ewt_set fuel rfuel st tout tret itask = Ret (st', t, r) -> P st'.
Proof.
  intros PS PL PF fuel rfuel st tout tret itask st' t r PT H0' E.
  pose proof (PS _ _ H0' (task_set_shell prob st tout itask)) as H1'.
  assert (Post : forall s2 s' t' r', P s2 -> post_step prob rfuel s2 tout tret itask = Ret (s', t', r') -> P s').
  { intros s2 s' t' r' Hp Ef. destruct (post_step_shell _ _ _ _ _ _ _ _ _ Ef) as (x & X1 & [(_ & X2 & _)|(_ & [X2|(y & X2 & X3)])]).
    - exact (PL _ _ (PS _ _ Hp X1) X2).
    - exact (PS _ _ (PS _ _ Hp X1) X2).
    - exact (PS _ _ (PL _ _ (PS _ _ Hp X1) X2) X3). }
  assert (Start : forall x, solve_start prob ewt_set rfuel (task_set st tout itask) tout tret itask = Ret x ->
     P (match x with inl (s, _, _) => s | inr (s, _) => s end)).
  { intros x A.
    destruct (solve_start_cases _ _ _ _ _ _ _ _ A) as [(Hz & s & m & X & ->)|[(Hz & s & l & E1 & E2 & E3 & E4 & ->)|(Hz & l & E1 & S1 & Q)]].
    - exact (PF _ _ _ H1' X).
    - exact (PS _ _ (PF _ _ _ H1' E1) E4).
    - apply later_call_shell in Q. destruct x as [((s & t') & r')|(s & t')].
      + destruct Q as (_ & Q). exact (PS _ _ (PS _ _ H1' S1) Q).
      + destruct Q as (_ & y & Q1 & _ & Q2 & _). exact (PL _ _ (PS _ _ (PS _ _ H1' S1) Q1) Q2). }
  destruct (solve_run _ _ _ _ _ _ _ _ _ _ _ E) as [A|(s0 & s & nl & m & En & Lo & F)].
  - exact (Start _ A).
  - pose proof (Start _ En) as Hs. cbv iota in Hs.
    assert (Hp : P s).
    { clear F. induction Lo as [|s nl s1 s2 u s' Lo IH Ep Es Ef]; [exact Hs|].
      pose proof (hd_pieces _ _ _ _ _ _ (run_head _ _ _ _ _ _ _ _ _ _ En Lo)) as Pc.
      exact (Post _ _ _ _ (PT _ _ _ _ _ _ IH Pc Ep Es) Ef). }
    pose proof (hd_pieces _ _ _ _ _ _ (run_head _ _ _ _ _ _ _ _ _ _ En Lo)) as Pc.
    destruct F as [st' t r Ep|s1 s2 e st' t r Ep Es Ef|s1 s2 u st' t r Ep Es Ef Hr2].
    + apply pre_step_shell in Ep. destruct Ep as (Ep & _). exact (PS _ _ Hp Ep).
    + apply step_failed_shell in Ef. destruct Ef as (Ef & _). exact (PS _ _ (PT _ _ _ _ _ _ Hp Pc Ep Es) Ef).
    + exact (Post _ _ _ _ (PT _ _ _ _ _ _ Hp Pc Ep Es) Ef).
Qed.

(** A step begins at the solution [y] with the weights [w]. *)
Definition begin_ok (c : @config T) (e : event T) (past : list (event T)) : Prop :=
  match e with
  | CBegin y w => (sone <? seps * wrms_norm (g_idv c) y w (g_suppressalg c))%sc = false /\
      (steps past <> [] -> w = ewt_set y /\ Forall (fun x => (x <=? szero)%sc = false) w)
  | _ => True
  end.

Lemma not_begin (c : @config T) (evs past : list (event T)) : Forall (fun e => is_begin e = false) evs ->
  every (begin_ok c) past -> every (begin_ok c) (evs ++ past).
Proof.
  intros Hf Hp. apply every_app; [|exact Hp]. intros e q Hi. eapply Forall_forall in Hf; [|exact Hi]. destruct e; cbn in *; auto; discriminate.
Qed.

Lemma calm_not_begin (evs : list (event T)) : Forall (fun e => is_root e || is_warn e = true) evs -> Forall (fun e => is_begin e = false) evs.
Proof. intros Hf. eapply Forall_impl; [|exact Hf]. intros e; destruct e; cbn; congruence. Qed.

Lemma callback_not_begin (evs : list (event T)) : quiet_evs evs -> Forall (fun e => is_begin e = false) evs.
Proof. intros Hf. eapply Forall_impl; [|exact Hf]. intros e; destruct e; cbn; congruence. Qed.

Lemma step_evs_not_begin (evs : list (event T)) f : step_evs evs f -> Forall (fun e => is_begin e = false) evs.
Proof.
  induction 1 as [|evs f t h k cs He IH Hq]; [constructor|]. constructor; [reflexivity|].
  apply Forall_app. split; [exact (callback_not_begin _ Hq)|]. constructor; [reflexivity|exact IH].
Qed.

Lemma existsb_none {A} (p : A -> bool) l : existsb p l = false -> Forall (fun x => p x = false) l.
Proof. induction l as [|a l IH]; [constructor|]. cbn. intros E. apply orb_false_iff in E. destruct E. constructor; auto. Qed.

Theorem C54_steps_checked : @nls_lawful T NSt _ -> forall c yy0 yp0 (st : state),
  config_ok c -> reach prob ewt_set c yy0 yp0 st -> every (begin_ok c) (tr st).
Proof.
  intros Hl c yy0 yp0 st Hc Hr. induction Hr as [st E|fuel rfuel st k st' rep Hr IH E].
  - pose proof (new_fields prob yy0 yp0 st E) as Nf.
    assert (Q : tr st = []) by tauto. change (tr (configure c st)) with (tr st). rewrite Q. apply every_nil.
  - pose proof (reach_ord prob ewt_set Hl c yy0 yp0 st Hc Hr) as O.
    pose proof (reach_tlink prob ewt_set Hl c Hc yy0 yp0 st Hr) as Lk.
    assert (PS : forall a b : state, every (begin_ok c) (tr a) -> shell prob a b -> every (begin_ok c) (tr b)).
    { intros a b Ha Sh. destruct (shell_ext prob a b Sh) as (evs & (-> & _) & Q & _). apply not_begin; [apply calm_not_begin; exact Q|exact Ha]. }
    destruct k as [tout tret itask|t|t k]; cbn [api_call] in E; apply bind_ret_inv in E; destruct E as (x & Ex & E).
    + destruct x as ((s & t) & r). injection E as <- <-.
      refine (solve_walk (fun s : state => every (begin_ok c) (tr s)) PS _ _ _ _ _ _ _ _ _ _ _ _ IH Ex); cbv beta.
      * intros a b Ha L. destruct (lims_ext prob a b L) as (-> & _). exact Ha.
      * intros a tout' x Ha Ef. destruct (first_ext prob ewt_set a tout' x Ef) as (evs & (-> & _) & Q).
        apply not_begin; [|exact Ha]. eapply Forall_impl; [|exact Q]. intros e; destruct e; cbn; congruence.
      * intros a nl s1 f s2 rs Ha Pa Ep Es.
        pose proof (pieces_ord prob ewt_set Hl _ _ O Pa) as Oa.
        pose proof (pieces_tlink prob ewt_set Hl c _ _ Hc O Lk Pa) as La.
        destruct (pre_step_cases _ _ _ _ _ _ Ep) as [(_ & Q)|(_ & [(_ & _ & y & _ & _ & Q)|(P1 & [(_ & y & _ & _ & _ & Q)|(P2 & y & P3 & P4 & Q)])])]; try discriminate.
        injection Q as <-. pose proof (PS _ _ Ha P3) as Hs.
        pose proof (shell_ord _ _ _ P3 Oa) as O1.
        pose proof (tlink_shell prob c _ _ Oa La P3) as L1.
        pose proof (step_spec prob Hl _ _ _ _ O1 Es) as Sp.
        destruct (stepped_ext prob ewt_set Hl _ _ _ O1 Sp) as (evs & cs & t' & h & k & f' & V1 & V2 & _ & (V3 & _)).
        rewrite V3. rewrite <- !app_assoc. apply not_begin; [destruct rs as [|[]]; repeat constructor|].
        apply not_begin; [exact (callback_not_begin _ V2)|].
        change (every (begin_ok c) ([CTry t' h k] ++ (evs ++ [begin_ev s1]) ++ tr s1)).
        apply not_begin; [repeat constructor|]. rewrite <- app_assoc.
        apply not_begin; [exact (step_evs_not_begin _ _ V1)|]. cbn [app]. apply every_cons; [|exact Hs].
        unfold begin_ev, begin_ok. change (nth 0 (phi s1) []) with (row (phi s1) 0).
        assert (Cf : idv s1 = g_idv c /\ suppressalg s1 = g_suppressalg c) by (pose proof (tl_cfg _ _ _ _ L1) as Q; unfold cfg_is in Q; tauto).
        destruct Cf as (<- & <-).
        pose proof (sh_core _ _ _ P3) as Cc. pose proof (core_fields _ _ Cc) as Cc'. pose proof (shell_cfg _ _ _ P3) as Cg.
        assert (Ph : phi s1 = phi a) by tauto. assert (Ig : idv s1 = idv a /\ suppressalg s1 = suppressalg a) by (unfold cfg in Cg; split; congruence).
        destruct Ig as (-> & ->). rewrite Ph, P4. split; [exact P2|].
        intros Hst. assert (Hz : nst a <> 0).
        { rewrite <- (shell_nst _ _ _ P3), <- (tl_n _ _ _ _ L1). destruct (steps (tr s1)); [congruence|discriminate]. }
        split; [unfold next_w; apply Nat.eqb_neq in Hz; rewrite Hz; reflexivity|]. apply existsb_none. exact (P1 Hz).
    + destruct x as (s & r). injection E as <- <-. exact (PS _ _ IH (get_solution_shell _ _ _ _ _ Ex)).
    + destruct x as (s & r). injection E as <- <-. exact IH.
Qed.

Lemma stop1_err_kinds (st s : state) tout tret itask t e : stop_test1 prob st tout tret itask = Ret (s, t, Err e) ->
  (exists a b d, e = EIda (BadTimeValue a b d)) \/ (exists a b, e = EIda (BadStopTime a b)).
Proof.
  unfold stop_test1. intros E.
  minv; try discriminate; eauto;
    match goal with X : get_solution _ _ _ = Ret (_, Err _) |- _ => destruct (gs_err _ _ _ _ _ X) as (? & ? & ? & ->); eauto | _ => idtac end.
Qed.

Lemma stop2_no_err (st s : state) tout tret itask t e : stop_test2 prob st tout tret itask <> Ret (s, t, Err e).
Proof. unfold stop_test2, stop2_tstop. intros E. minv; discriminate. Qed.
Lemma stop2_no_root (st s : state) tout tret itask t : stop_test2 prob st tout tret itask <> Ret (s, t, Ok RootReturn).
Proof. unfold stop_test2, stop2_tstop. intros E. minv; discriminate. Qed.

Lemma step_err_kinds fuel (st s : state) e : @nls_lawful T NSt _ -> ordok st -> step prob fuel st = Ret (s, Err e) ->
  forall x, e <> EIda x.
Proof.
  intros Hl O E x. apply (step_spec prob Hl) in E; [|exact O].
  destruct E as (sta & nef & st1 & ck & ek & ek1 & r1 & _ & _ & _ & [(_ & C & _)|(e1 & _ & _ & [(_ & _ & _ & C & _)|((m & M) & C & _)])]);
    congruence.
Qed.

(** The error, when the check fails. *)
Theorem C54_too_much_accuracy : @nls_lawful T NSt _ -> forall c yy0 yp0 (st : state) fuel rfuel tout tret itask st' t te,
  config_ok c -> reach prob ewt_set c yy0 yp0 st ->
  solve prob ewt_set fuel rfuel st tout tret itask = Ret (st', t, Err (EIda (TooMuchAccuracy te))) ->
  te = t /\ t = get_current_time st' /\ tretlast st' = t /\
  exists y w, y = row (phi st') 0 /\ (steps (tr st') <> [] -> w = ewt_set y) /\
    (sone <? seps * wrms_norm (g_idv c) y w (g_suppressalg c))%sc = true /\
    get_tol_scale_factor st' = (seps * wrms_norm (g_idv c) y w (g_suppressalg c) * sten)%sc.
Proof.
  intros Hl c yy0 yp0 st fuel rfuel tout tret itask st' t te Hc Hr E.
  assert (Hr' : reach prob ewt_set c yy0 yp0 st') by (eapply reach_next; eassumption).
  pose proof (reach_tlink prob ewt_set Hl c Hc yy0 yp0 st' Hr') as L'.
  destruct (solve_run _ _ _ _ _ _ _ _ _ _ _ E) as [A|(s0 & s & nl & m & En & Lo & F)].
  - exfalso. unfold answers in A.
    destruct (solve_start_cases _ _ _ _ _ _ _ _ A) as [(Hz & s & m & X & Q)|[(Hz & s & l & E1 & E2 & E3 & E4 & Q)|(Hz & l & E1 & S1 & Q)]]; try discriminate.
    destruct (later_call_cases _ _ _ _ _ _ _ Q) as [(_ & y & e & X & Y)|[(_ & y & _ & _ & X)|[(_ & X0 & _ & _ & y & y' & r' & _ & _ & X)|(y & y' & t' & r' & Y1 & Y2 & Y3 & Y4 & X)]]]; try discriminate.
    + injection Y as -> -> <-. apply r_check2_err in X. destruct X as (z & X). discriminate.
    + destruct r' as [[]|e]; try discriminate X. cbn in X. injection X as <- <- <-.
      destruct (stop1_err_kinds _ _ _ _ _ _ _ Y4) as [(a & b & d & Q1)|(a & b & Q1)]; discriminate Q1.
  - remember (Err (EIda (TooMuchAccuracy te))) as r eqn:Er.
    destruct F as [st' t r Ep|s1 s2 e st' t r Ep Es Ef|s1 s2 u st' t r Ep Es Ef Hr2].
    + destruct (pre_step_cases _ _ _ _ _ _ Ep) as [(_ & Q)|(_ & [(_ & _ & y & _ & _ & Q)|(P1 & [(P2 & y & P3 & P4 & P5 & Q)|(_ & y & _ & _ & Q)])])]; try discriminate.
      * injection Q as -> -> ->. discriminate.
      * injection Q as -> -> ->. discriminate.
      * injection Q as -> -> ->. injection Er as <-.
        pose proof (sh_core _ _ _ P3) as Cc. pose proof (core_fields _ _ Cc) as Cc'. pose proof (shell_cfg _ _ _ P3) as Cg.
        assert (Ph : phi y = phi s) by tauto. assert (Tn : tn (nlp y) = tn (nlp s)) by tauto.
        assert (Ig : idv s = g_idv c /\ suppressalg s = g_suppressalg c).
        { pose proof (tl_cfg _ _ _ _ L') as Q. unfold cfg_is in Q. unfold cfg in Cg. destruct Q as (Q1 & Q).
          assert (idv y = g_idv c /\ suppressalg y = g_suppressalg c) by tauto. split; [replace (idv s) with (idv y) by congruence|replace (suppressalg s) with (suppressalg y) by congruence]; tauto. }
        destruct Ig as (<- & <-). split; [reflexivity|]. split; [symmetry; exact Tn|]. split; [exact P5|].
        exists (row (phi y) 0), (next_w ewt_set s). rewrite Ph. split; [reflexivity|]. split; [|split; [exact P2|exact P4]].
        intros Hst. assert (Hz : nst s <> 0).
        { rewrite <- (shell_nst _ _ _ P3), <- (tl_n _ _ _ _ L'). destruct (steps (tr y)); [congruence|discriminate]. }
        unfold next_w. apply Nat.eqb_neq in Hz. rewrite Hz. reflexivity.
    + exfalso. apply step_failed_shell in Ef. destruct Ef as (_ & Q & _).
      assert (e = EIda (TooMuchAccuracy te)) by congruence. subst e.
      pose proof (pieces_ord prob ewt_set Hl _ _ (reach_ord prob ewt_set Hl c yy0 yp0 st Hc Hr) (hd_pieces _ _ _ _ _ _ (run_head _ _ _ _ _ _ _ _ _ _ En Lo))) as Oa.
      pose proof (pre_step_shell _ _ _ _ _ _ Ep) as (P3 & _).
      exact (step_err_kinds _ _ _ _ Hl (shell_ord _ _ _ P3 Oa) Es _ eq_refl).
    + exfalso. apply post_step_cases in Ef. destruct Ef as [(_ & x & _ & _ & _ & _ & X)|(x & X1 & X2 & X3 & X4)]; [congruence|].
      subst r. exact (stop2_no_err _ _ _ _ _ _ _ X4).
Qed.
(** ** C50 *)
Lemma stop_no_tstop (a b : state) : shell prob a b -> tstop a = None -> tstop b = None.
Proof. intros S E. destruct (sh_tstop _ _ _ S); congruence. Qed.

Lemma tstop_return : @nls_lawful T NSt _ -> forall fuel rfuel (st : state) tout tret itask st' t, ordok st ->
  solve prob ewt_set fuel rfuel st tout tret itask = Ret (st', t, Ok TStop) ->
  (exists x s, nst st <> 0 /\ shell prob st x /\ tstop x = Some t /\ past_tstop x = false /\ at_tstop x t = true /\
     get_solution prob x t = Ret (s, Ok tt) /\
     st' = (match itask with Normal => set_tstop None (set_tretlast t s) | OneStep => set_tretlast t s end)) \/
  (exists x, pieces prob ewt_set st x /\ tstop x = Some t /\ tstop st' = None /\ nst st < nst st').
Proof.
  intros Hl fuel rfuel st tout tret itask st' t O E. destruct (solve_run _ _ _ _ _ _ _ _ _ _ _ E) as [A|(s0 & s & nl & m & En & L & F)].
  - left. unfold answers in A. pose proof (task_set_shell prob st tout itask) as S0.
    destruct (solve_start_cases _ _ _ _ _ _ _ _ A) as [(Hz & s & m & X & Q)|[(Hz & s & l & E1 & E2 & E3 & E4 & Q)|(Hz & l & E1 & S1 & Q)]]; try discriminate.
    destruct (later_call_cases _ _ _ _ _ _ _ Q) as [(_ & y & e & X & Y)|[(_ & y & _ & _ & X)|[(_ & _ & _ & _ & y & y' & r' & _ & _ & X)|(y & y' & t' & r' & Y1 & Y2 & Y3 & Y4 & X)]]]; try discriminate.
    assert (Hr2 : r' = Ok TStop) by (destruct r' as [[]|]; cbn in X; congruence). subst r'. injection X as <- <-.
    apply stop_test1_tstop in Y4. destruct Y4 as (ts & x & P1 & -> & P3 & P4 & P5 & P6).
    exists y, x. split; [rewrite <- (shell_nst _ _ _ S0); exact Hz|].
    split; [eapply shell_trans; [exact S0|]; eapply shell_trans; [exact S1|exact Y1]|]. auto.
  - right. pose proof (run_head _ _ _ _ _ _ _ _ _ _ En L) as Hd.
    destruct (ends_nst prob ewt_set Hl _ _ _ _ _ _ _ _ _ _ _ _ O (enters_head _ _ _ _ _ _ _ _ En) L F) as (Hn & _).
    destruct (start_nst _ _ _ _ _ _ _ _ En) as (Hn0 & _).
    remember (Ok TStop) as r eqn:Er0.
    destruct F as [st' t r Ep|s1 s2 e st' t r Ep Es Ef|s1 s2 u st' t r Ep Es Ef Hr'].
    + apply pre_step_shell in Ep. destruct Ep as (_ & _ & [(Er & _)|(_ & [Er|Er])]); congruence.
    + apply step_failed_shell in Ef. destruct Ef as (_ & Er & _). congruence.
    + pose proof (head_step _ _ _ _ _ _ _ _ _ _ _ _ Hd Ep Es) as P2.
      apply post_step_cases in Ef. destruct Ef as [(_ & x & _ & _ & _ & _ & X)|(x & X1 & X2 & X3 & X4)]; [congruence|].
      subst r. apply stop_test2_tstop in X4. destruct X4 as (ts & y & r' & Y1 & -> & _ & _ & Y2).
      exists x. split; [exact (pieces_shell _ _ _ _ _ P2 X1)|]. split; [exact Y1|]. split; [rewrite Y2; reflexivity|lia].
Qed.

Lemma piece_no_tstop (a b : state) : @nls_lawful T NSt _ -> ordok a /\ tstop a = None -> piece prob ewt_set a b ->
  ordok b /\ tstop b = None.
Proof.
  intros Hl (O & E) P. split; [exact (piece_ord prob ewt_set Hl _ _ O P)|].
  destruct P as [a b S|a b Hz Lm|a b tout m Hz F|a b tout Hz F|fuel a b r Lm Fr Es].
  - exact (stop_no_tstop _ _ S E).
  - apply lims_fields in Lm. destruct Lm as (h & ->). exact E.
  - apply first_call_frame in F. cbv zeta iota in F. destruct F as (Fk & _). unfold fkeep, cfg in Fk. pinj. congruence.
  - apply first_call_frame in F. cbv zeta iota in F. destruct F as (Fk & _). unfold fkeep, cfg in Fk. pinj. congruence.
  - pose proof (step_spec prob Hl _ _ _ _ O Es) as Hs.
    destruct (stepped_ord prob _ _ _ O Hs) as (_ & _ & O1 & _). unfold outer in O1. congruence.
Qed.

Lemma pieces_no_tstop (a b : state) : @nls_lawful T NSt _ -> ordok a -> tstop a = None -> pieces prob ewt_set a b -> tstop b = None.
Proof.
  intros Hl O E P. refine (proj2 (pieces_inv prob ewt_set (fun s : state => ordok s /\ tstop s = None) _ a b P (conj O E))).
  intros x y. apply piece_no_tstop. exact Hl.
Qed.

(** In [Normal] mode, and whenever the call took a step, the stop time is
    cleared, and no later call brings it back.  Missing for C50: [OneStep] calls
    that take no step, see [C50_one_step_stuck] and [C50_refuted]. *)
Theorem C50_tstop_cleared_partial : @nls_lawful T NSt _ -> forall c yy0 yp0 (st : state) fuel rfuel tout tret itask st' t,
  config_ok c -> reach prob ewt_set c yy0 yp0 st ->
  solve prob ewt_set fuel rfuel st tout tret itask = Ret (st', t, Ok TStop) ->
  itask = Normal \/ steps (tr st') <> steps (tr st) ->
  tstop st' = None /\
  forall fuel rfuel tout tret itask st'' t' r, solve prob ewt_set fuel rfuel st' tout tret itask = Ret (st'', t', r) ->
    tstop st'' = None /\ r <> Ok TStop.
Proof.
  intros Hl c yy0 yp0 st fuel rfuel tout tret itask st' t Hc Hr E Hi.
  pose proof (reach_ord prob ewt_set Hl c yy0 yp0 st Hc Hr) as O.
  pose proof (pieces_ord prob ewt_set Hl _ _ O (solve_pieces _ _ _ _ _ _ _ _ _ _ _ E)) as O'.
  assert (N : tstop st' = None).
  { destruct (tstop_return Hl _ _ _ _ _ _ _ _ O E) as [(x & s & Hz & S & X1 & X2 & X3 & X4 & ->)|(x & _ & _ & X & _)]; [|exact X].
    destruct itask; [reflexivity|]. exfalso. destruct Hi as [Hi|Hi]; [discriminate|apply Hi].
    pose proof (shell_trans _ _ _ _ S (get_solution_shell _ _ _ _ _ X4)) as S2.
    destruct (sh_trace _ _ _ S2) as (evs & Et & Ev & _).
    change (trace (lp (nlp (set_tretlast t s)))) with (trace (lp (nlp s))). rewrite Et.
    clear -Ev. induction Ev as [|e evs He Ev IH]; [reflexivity|]. destruct e; cbn in He; try discriminate; exact IH. }
  split; [exact N|]. intros fuel' rfuel' tout' tret' itask' st'' t' r E'.
  pose proof (solve_pieces _ _ _ _ _ _ _ _ _ _ _ E') as P'.
  split; [exact (pieces_no_tstop _ _ Hl O' N P')|]. intros ->.
  destruct (tstop_return Hl _ _ _ _ _ _ _ _ O' E') as [(x & s & Hz & S & X1 & _)|(x & P & X1 & _)].
  - pose proof (stop_no_tstop _ _ S N). congruence.
  - pose proof (pieces_no_tstop _ _ Hl O' N P). congruence.
Qed.

Lemma reach_ordT : @nls_lawful T NSt _ -> forall c yy0 yp0 (st : state), config_ok c -> reach prob ewt_set c yy0 yp0 st ->
  ordok st /\ tlink prob c None st.
Proof.
  intros Hl c yy0 yp0 st Hc Hr. split; [exact (reach_ord prob ewt_set Hl c yy0 yp0 st Hc Hr)|].
  exact (reach_tlink prob ewt_set Hl c Hc yy0 yp0 st Hr).
Qed.

(** A [OneStep] call that reports the stop time without a step leaves it set, and
    every later [OneStep] call reports it again. *)
Theorem C50_one_step_stuck : @nls_lawful T NSt _ -> forall c yy0 yp0 (st : state) fuel rfuel tout tret st' t,
  config_ok c -> num_roots prob = 0 -> reach prob ewt_set c yy0 yp0 st ->
  solve prob ewt_set fuel rfuel st tout tret OneStep = Ret (st', t, Ok TStop) -> length (steps (tr st')) = length (steps (tr st)) ->
  tstop st' = Some t /\
  forall fuel rfuel tout tret, exists st'', solve prob ewt_set fuel rfuel st' tout tret OneStep = Ret (st'', t, Ok TStop) /\
    unmoved st' st''.
Proof.
  intros Hl c yy0 yp0 st fuel rfuel tout tret st' t Hc Hnr Hr E Hs.
  assert (Hr' : reach prob ewt_set c yy0 yp0 st') by (eapply (reach_next prob ewt_set); eassumption).
  destruct (reach_ordT Hl _ _ _ _ Hc Hr) as (O & L).
  destruct (reach_ordT Hl _ _ _ _ Hc Hr') as (O' & L').
  pose proof (reach_nrtfn Hl _ _ _ _ Hc Hr') as Hf. rewrite Hnr in Hf.
  destruct (tstop_return Hl _ _ _ _ _ _ _ _ O E) as [(x & s & Hz & S & X1 & X2 & X3 & X4 & E')|(x & _ & _ & _ & X)].
  2:{ exfalso. pose proof (tl_n _ _ _ _ L) as N0. pose proof (tl_n _ _ _ _ L') as N1. rewrite Hs in N1. lia. }
  pose proof (get_solution_shell _ _ _ _ _ X4) as Sg.
  assert (Kt : tstop s = tstop x) by (destruct (gs_tn _ _ _ _ _ X4) as (_ & _ & Q); tauto).
  assert (Ts : tstop st' = Some t) by (rewrite E'; change (tstop (set_tretlast t s)) with (tstop s); congruence).
  split; [exact Ts|]. intros fuel' rfuel' tout' tret'.
  assert (Hz' : nst st' <> 0).
  { rewrite E'. change (nst (set_tretlast t s)) with (nst s). rewrite (shell_nst _ _ _ Sg), (shell_nst _ _ _ S). exact Hz. }
  assert (Ht : tretlast st' = t) by (rewrite E'; reflexivity).
  assert (Hp : (szero <? (tn (nlp st') - t) * hh st')%sc = false).
  { rewrite E'. destruct (core_hh _ _ (sh_core _ _ _ Sg)) as (Q1 & Q2). unfold past_tstop in X2. rewrite X1 in X2.
    change (tn (nlp (set_tretlast t s))) with (tn (nlp s)). change (hh (set_tretlast t s)) with (hh s). rewrite Q1, Q2. exact X2. }
  assert (Ha : at_tstop st' t = true).
  { rewrite E'. change (at_tstop (set_tretlast t s) t) with (at_tstop s t). destruct (core_hh _ _ (sh_core _ _ _ Sg)) as (Q1 & Q2).
    unfold at_tstop in *. rewrite Q1, Q2. exact X3. }
  rewrite later_eq by assumption. unfold stop_test1. cbv zeta.
  set (y := asked st' tout' OneStep).
  change (tstop y) with (tstop st'). rewrite Ts.
  change (tn (nlp y)) with (tn (nlp st')). change (hh y) with (hh st'). change (tretlast y) with (tretlast st'). rewrite Ht, Hp.
  change (at_tstop y t) with (at_tstop st' t). rewrite Ha.
  destruct O' as (A & M & _ & K & _).
  assert (Ay : arrays y) by exact A. assert (Ky : (kused y <= 5)) by (change (kused st' <= 5); lia).
  assert (Ks : (kused st' <= 5)) by lia.
  assert (Gs : exists g, get_solution prob st' t = Ret (g, Ok tt) /\ get_yy g = get_yy st' /\ get_yp g = get_yp st').
  { pose proof (shell_ord _ _ _ S O) as (Ax & Mx & _ & Kx & _).
    destruct (gs_again prob x s st' t (Ok tt)) as (b & B1 & B2 & B3); auto; try lia.
    - rewrite E'. exact (sh_core _ _ _ Sg).
    - rewrite E'. reflexivity.
    - rewrite E'. reflexivity.
    - exists b. auto. }
  destruct Gs as (g & Hg & Gy & Gp).
  pose proof (gs_eval prob st' g t _ A Ks Hg) as V.
  destruct (gs_ret prob y t Ay Ky) as (g' & Eg). pose proof (gs_eval prob y g' t _ Ay Ky Eg) as V'.
  change (time_check y t) with (time_check st' t) in V', Eg. destruct (time_check st' t); [destruct V; discriminate|].
  destruct V as (_ & V1 & V2). destruct V' as (_ & V1' & V2').
  change (interp_y prob y t) with (interp_y prob st' t) in V1'. change (interp_yp prob y t) with (interp_yp prob st' t) in V2'.
  assert (Tr : tr g' = tr st').
  { pose proof (get_solution_spec prob y t Ay Ky) as Sp. destruct (time_check y t); [rewrite Sp in Eg; discriminate|].
    destruct Sp as (cv & dv & Sp & _). rewrite Sp in Eg. injection Eg as <-. reflexivity. }
  rewrite Eg. cbn [bind]. eexists. split; [reflexivity|].
  pose proof (get_solution_shell _ _ _ _ _ Eg) as S3. pose proof (core_fields _ _ (sh_core _ _ _ S3)) as Cf.
  unfold unmoved, get_current_time, get_current_setp, get_yy, get_yp in *.
  change (trace (lp (nlp (set_tretlast t g')))) with (tr g').
  change (phi (set_tretlast t g') = phi st') with (phi g' = phi y).
  change (psi (set_tretlast t g') = psi st') with (psi g' = psi y).
  change (nst (set_tretlast t g') = nst st') with (nst g' = nst y).
  change (tn (nlp (set_tretlast t g')) = tn (nlp st')) with (tn (nlp g') = tn (nlp y)).
  change (hh (set_tretlast t g') = hh st') with (hh g' = hh y).
  change (yy (nlp (set_tretlast t g')) = yy (nlp st')) with (yy (nlp g') = yy (nlp st')).
  change (yp (nlp (set_tretlast t g')) = yp (nlp st')) with (yp (nlp g') = yp (nlp st')).
  split; [exact Tr|]. do 5 (split; [tauto|]). split; congruence.
Qed.

End AnyScalar.

Open Scope R_scope.
Section OverR.
Context {LSt NSt : Type} `{LSolver R LSt} `{NLSolver R NSt}.
Variable prob : problem R.
Variable ewt_set : list R -> list R.
Hypothesis Hl : @nls_lawful R NSt _.
Notation n := (model_size prob).
Notation state := (ida R LSt NSt).
Notation tr st := (trace (lp (nlp st))).

Lemma reach_past c yy0 yp0 (st : state) : config_ok c -> reach prob ewt_set c yy0 yp0 st -> nst st <> 0%nat ->
  past_tstop st = false.
Proof.
  intros Hc Hr Hz. destruct (reach_ordJ prob ewt_set Hl _ _ _ _ Hc Hr) as (_ & _ & Rl). unfold past_tstop.
  destruct (tstop st) as [ts|] eqn:Et; [|reflexivity]. destruct (rl_stop _ _ _ Rl ts Et (or_introl Hz)) as (Q & _).
  cbn. apply Rltb_false. exact Q.
Qed.

(** Whatever the stop time. *)
Theorem C51_same_tout_R c yy0 yp0 (st : state) fuel rfuel tout tret st' t :
  config_ok c -> num_roots prob = 0%nat -> reach prob ewt_set c yy0 yp0 st ->
  solve prob ewt_set fuel rfuel st tout tret Normal = Ret (st', t, Ok Success) ->
  forall fuel' rfuel' tret', exists st'',
    solve prob ewt_set fuel' rfuel' st' tout tret' Normal = Ret (st'', tout, Ok Success) /\ unmoved st' st''.
Proof.
  intros Hc Hnr Hr E fuel' rfuel' tret'.
  destruct (C45_path prob ewt_set Hl c yy0 yp0 st fuel rfuel tout tret st' t Hc Hr E) as (_ & Ht & _).
  pose proof (success_nst prob ewt_set Hl _ _ _ _ _ _ _ _ _ _ _ _ Hc Hr E) as Hz.
  assert (Hr' : reach prob ewt_set c yy0 yp0 st') by (eapply reach_next; eassumption).
  pose proof (reach_nrtfn prob ewt_set Hl _ _ _ _ Hc Hr') as Hn. rewrite Hnr in Hn.
  destruct (again prob ewt_set fuel' rfuel' st' tout tret') as (st'' & E1 & E2 & _); auto.
  - exact (reach_past _ _ _ _ Hc Hr' Hz).
  - rewrite Ht. cbn. apply Reqb_true. reflexivity.
  - eauto.
Qed.

(** ** C52 *)
(** The last returned time can be asked for again. *)
Lemma hused_sign c yy0 yp0 (st : state) : config_ok c -> reach prob ewt_set c yy0 yp0 st -> nst st <> 0%nat ->
  0 < hh st * hused st.
Proof.
  intros Hc Hr Hz. destruct (reach_ordJ prob ewt_set Hl _ _ _ _ Hc Hr) as (_ & Lk & Rl).
  destruct (steps_ne prob c None st (conj Lk Rl) Hz) as (a & rest & Es).
  pose proof (rl_sign _ _ _ Rl) as Hs. rewrite Es in Hs. apply Forall_inv in Hs.
  destruct (tl_used _ _ _ _ Lk a rest Es) as (_ & ->). exact Hs.
Qed.

Lemma time_tn (st : state) : 0 < hh st * hused st -> time_check st (tn (nlp st)) = None.
Proof.
  intros Hs. apply time_ok; [exact Hs|]. pose proof eps_pos. pose proof (Rabs_pos (hh st)). pose proof (Rabs_pos (tn (nlp st))).
  assert (0 <= 100 * eps * (Rabs (tn (nlp st)) + Rabs (hh st)) * Rabs (hh st)).
  { apply Rmult_le_pos; [|lra]. apply Rmult_le_pos; lra. }
  nra.
Qed.

Lemma stop1_ret (st st' : state) tout tret itask t r : arrays st -> (kused st <= 5)%nat ->
  stop_test1 prob st tout tret itask = Ret (st', t, r) -> r <> Ok ContinueSteps ->
  core st' = core st /\ (tretlast st' = tretlast st \/ time_check st (tretlast st') = None \/ tretlast st' = tn (nlp st)).
Proof.
  intros A K E Hr. unfold stop_test1 in E. cbv zeta in E.
  assert (G : forall t0 s r0, get_solution prob st t0 = Ret (s, r0) ->
     core s = core st /\ tretlast s = tretlast st /\ tn (nlp s) = tn (nlp st) /\ (r0 = Ok tt -> time_check st t0 = None)).
  { intros t0 s r0 Eg. destruct (gs_tn _ _ _ _ _ Eg) as (G1 & G2 & _).
    split; [exact (sh_core _ _ _ (get_solution_shell _ _ _ _ _ Eg))|]. split; [exact G2|]. split; [exact G1|].
    intros ->. pose proof (gs_eval prob st s t0 _ A K Eg) as V. destruct (time_check st t0); [destruct V; discriminate|reflexivity]. }
  minv; try congruence; try (split; [reflexivity|auto; fail]);
    try (split; [reflexivity|left; cbn; apply Reqb_true; assumption]);
    match goal with X : get_solution _ _ _ = Ret (?s, _) |- _ =>
      destruct (G _ _ _ X) as (G1 & G2 & G3 & G4);
      try (split; [exact G1|]; cbn; auto; right; left; apply G4; match goal with a : unit |- _ => destruct a end; reflexivity) end.
Qed.
Lemma tretlast_ok c yy0 yp0 (st : state) : config_ok c -> num_roots prob = 0%nat -> reach prob ewt_set c yy0 yp0 st ->
  nst st <> 0%nat -> time_check st (tretlast st) = None.
Proof.
  intros Hc Hnr Hr. induction Hr as [st E|fuel rfuel st k st' rep Hr IH E].
  - intros Hz. exfalso. apply Hz. pose proof (new_fields prob yy0 yp0 st E) as Nf. change (nst (configure c st)) with (nst st). tauto.
  - intros Hz. assert (Hr' : reach prob ewt_set c yy0 yp0 st') by (eapply reach_call; eassumption).
    pose proof (hused_sign _ _ _ _ Hc Hr' Hz) as Hs.
    destruct k as [tout tret itask|t|t k]; cbn [api_call] in E; apply bind_ret_inv in E; destruct E as (x & Ex & E).
    + destruct x as ((s & t) & r). injection E as <- <-.
      destruct (reach_ordJ prob ewt_set Hl _ _ _ _ Hc Hr) as (O & _).
      destruct (solve_run _ _ _ _ _ _ _ _ _ _ _ Ex) as [A|(s0 & s' & nl & m & En & Lo & F)].
      * pose proof (answers_nst _ _ _ _ _ _ _ _ _ _ A) as Hn. unfold answers in A.
        pose proof (task_set_shell prob st tout itask) as S0.
        destruct (solve_start_cases _ _ _ _ _ _ _ _ A) as [(Hz0 & _)|[(Hz0 & _)|(Hz0 & l & E1 & S1 & Q)]];
          try (exfalso; rewrite (shell_nst _ _ _ S0) in Hz0; congruence).
        pose proof (reach_nrtfn prob ewt_set Hl _ _ _ _ Hc Hr) as Hf. rewrite Hnr in Hf.
        assert (Hf' : nrtfn (on_lp (fun _ => l) (task_set st tout itask)) = 0%nat) by (destruct itask; exact Hf).
        destruct (later_call_cases _ _ _ _ _ _ _ Q) as [(Z & _)|[(Z & _)|[(Z & _)|(y & y' & t' & r' & Y1 & Y2 & Y3 & Y4 & X)]]]; try contradiction.
        rewrite (Y3 Hf') in *. clear Y1 Y2 Y3 y.
        assert (Hr2 : r' <> Ok ContinueSteps /\ y' = s) by (destruct r' as [[]|]; cbn in X; try discriminate; injection X as -> -> _; split; congruence).
        destruct Hr2 as (Hr2 & ->).
        assert (Sx : shell prob st (on_lp (fun _ => l) (task_set st tout itask))) by (eapply shell_trans; eassumption).
        pose proof (sh_core _ _ _ Sx) as Cx. pose proof (shell_ord _ _ _ Sx O) as (Ax & Mx & _ & Kx & _).
        destruct (stop1_ret _ _ _ _ _ _ _ Ax ltac:(lia) Y4 Hr2) as (Cs & Ht).
        rewrite (proj1 (core_interp prob _ _ Cs (tretlast s))).
        destruct Ht as [Ht|[Ht|Ht]].
        -- assert (Ht2 : tretlast s = tretlast st) by (rewrite Ht; destruct itask; reflexivity).
           rewrite Ht2. rewrite (proj1 (core_interp prob _ _ Cx _)). apply IH. congruence.
        -- exact Ht.
        -- rewrite Ht. apply time_tn. pose proof (core_fields _ _ Cs) as Cf.
           assert (hh s = hh (on_lp (fun _ => l) (task_set st tout itask)) /\ hused s = hused (on_lp (fun _ => l) (task_set st tout itask))) as (<- & <-) by tauto.
           exact Hs.
      * pose proof (enters_head _ _ _ _ _ _ _ _ En) as Hd.
        destruct (ends_nst prob ewt_set Hl _ _ _ _ _ _ _ _ _ _ _ _ O Hd Lo F) as (Hn & _).
        destruct (start_nst _ _ _ _ _ _ _ _ En) as (Hn0 & Hc0).
        assert (Hf : forall x : state, cfg x = cfg st -> nrtfn x = 0%nat).
        { intros x Hx. pose proof (reach_nrtfn prob ewt_set Hl _ _ _ _ Hc Hr) as Hf. unfold cfg in Hx. congruence. }
        pose proof (pieces_ord prob ewt_set Hl _ _ O (hd_pieces _ _ _ _ _ _ (run_head _ _ _ _ _ _ _ _ _ _ En Lo))) as Oa.
        destruct (loops_nst prob ewt_set Hl _ _ _ _ _ _ _ _ O Hd Lo) as (_ & Hc1 & _).
        destruct F as [st' t r Ep|s1 s2 e st' t r Ep Es Ef|s1 s2 u st' t r Ep Es Ef Hr2].
        -- assert (Q : tretlast st' = tn (nlp s') /\ core st' = core s').
           { destruct (pre_step_cases _ _ _ _ _ _ Ep) as [(_ & Q)|(_ & [(_ & _ & y & P3 & P4 & Q)|(_ & [(_ & y & P3 & _ & P4 & Q)|(_ & y & _ & _ & Q)])])]; try discriminate;
               injection Q as -> -> ->; auto. split; [exact P4|exact (sh_core _ _ _ P3)]. split; [exact P4|exact (sh_core _ _ _ P3)]. }
           destruct Q as (Q1 & Q2). destruct (core_hh _ _ Q2) as (_ & Q3). rewrite Q1, <- Q3. apply time_tn. exact Hs.
        -- pose proof (step_failed_shell _ _ _ _ _ _ _ Ef) as (Sf & _). unfold step_failed in Ef.
           pose proof (sh_core _ _ _ Sf) as Cf. destruct (core_hh _ _ Cf) as (Q1 & Q2).
           assert (Hsf : 0 < hh s2 * hused s2) by (pose proof (core_fields _ _ Cf) as Cf'; assert (hused st' = hused s2) as <- by tauto; rewrite <- Q1; exact Hs).
           apply bind_ret_inv in Ef. destruct Ef as ((g & rg) & Eg & Ef). cbv beta iota in Ef.
           pose proof (pre_step_shell _ _ _ _ _ _ Ep) as (P3 & _). pose proof (shell_ord _ _ _ P3 Oa) as O1.
           pose proof (step_spec prob Hl _ _ _ _ O1 Es) as Sp.
           destruct (stepped_ord prob _ _ _ O1 Sp) as ((A2 & M2 & _ & K2 & _) & _).
           pose proof (gs_eval prob s2 g _ _ A2 ltac:(lia) Eg) as V. rewrite (time_tn _ Hsf) in V. destruct V as (-> & _).
           destruct (gs_tn _ _ _ _ _ Eg) as (G1 & _). injection Ef as <- _ _. change (tretlast (set_tretlast (tn (nlp g)) g)) with (tn (nlp g)).
           rewrite (proj1 (core_interp prob _ _ Cf _)). rewrite G1. apply time_tn. exact Hsf.
        -- assert (Hn2 : nst st' = S (nst s')) by (pose proof (loops_nst prob ewt_set Hl _ _ _ _ _ _ _ _ O Hd Lo); lia).
           pose proof (pre_step_shell _ _ _ _ _ _ Ep) as (P3 & _). pose proof (shell_ord _ _ _ P3 Oa) as O1.
           destruct (step_nst prob Hl _ _ _ _ O1 Es) as (_ & Hc2).
           assert (Nr2 : nrtfn s2 = 0%nat) by (apply Hf; rewrite Hc2, (shell_cfg _ _ _ P3); congruence).
           pose proof Ef as Ef0. apply post_step_cases in Ef. destruct Ef as [(Z & _)|(x & _ & _ & X3 & X4)]; [contradiction|].
           rewrite (X3 Nr2) in X4. clear X3 x.
           assert (Tn : tretlast st' = tn (nlp st') -> time_check st' (tretlast st') = None).
           { intros ->. apply time_tn. exact Hs. }
           assert (Gs : forall t0 g, get_solution prob st' t0 = Ret (g, Ok tt) -> time_check st' t0 = None).
           { intros t0 g Eg. destruct (reach_ordJ prob ewt_set Hl _ _ _ _ Hc Hr') as ((A' & M' & _ & K' & _) & _).
             pose proof (gs_eval prob st' g t0 _ A' ltac:(lia) Eg) as V. destruct (time_check st' t0); [destruct V; discriminate|reflexivity]. }
           destruct r as [[]|e].
           ++ contradiction.
           ++ destruct itask.
              ** destruct (C45_outputs_at_tout prob ewt_set Hl c yy0 yp0 st fuel rfuel tout tret st' t Hc Hr Ex) as (_ & Ht & [(_ & Hs1 & _)|(_ & g & Hg & _)]).
                 --- exfalso. pose proof (reach_tlink prob ewt_set Hl c Hc yy0 yp0 st Hr) as L0. pose proof (reach_tlink prob ewt_set Hl c Hc yy0 yp0 st' Hr') as L1.
                     pose proof (tl_n _ _ _ _ L0) as N0. pose proof (tl_n _ _ _ _ L1) as N1. rewrite Hs1 in N1. lia.
                 --- rewrite Ht. exact (Gs _ _ Hg).
              ** destruct (C46_one_step prob ewt_set Hl c yy0 yp0 st fuel rfuel tout tret st' t Hc Hr Ex) as (Ht & Ht' & _). apply Tn. congruence.
           ++ destruct (C49_tstop_return prob ewt_set Hl c yy0 yp0 st fuel rfuel tout tret itask st' t Hc Hr Ex) as (_ & Ht & _ & g & Hg & _).
              rewrite Ht. exact (Gs _ _ Hg).
           ++ exfalso. exact (stop2_no_root _ _ _ _ _ _ _ X4).
           ++ exfalso. exact (stop2_no_err _ _ _ _ _ _ _ _ X4).
    + destruct x as (s & r). injection E as <- <-. pose proof (get_solution_shell _ _ _ _ _ Ex) as Sf.
      destruct (gs_tn _ _ _ _ _ Ex) as (_ & G2 & _). rewrite G2. rewrite (proj1 (core_interp prob _ _ (sh_core _ _ _ Sf) _)).
      apply IH. rewrite <- (shell_nst _ _ _ Sf). exact Hz.
    + destruct x as (s & r). injection E as <- <-. exact (IH Hz).
Qed.

(** [tout] lies before the beginning of the last step by more than the roundoff allowance. *)
Definition before_last_step (st : state) (tout : R) : Prop :=
  (tout - (get_current_time st - hused st)) * get_current_setp st <
  - (100 * eps * (Rabs (get_current_time st) + Rabs (get_current_setp st))) * Rabs (get_current_setp st).

Lemma before_check (st : state) tout : before_last_step st tout ->
  time_check st tout = Some (EIda (BadTimeValue tout (tn (nlp st) - hused st) (tn (nlp st)))).
Proof.
  unfold before_last_step, get_current_time, get_current_setp, time_check. cbn. change (/ 4503599627370496) with eps. intros Hb.
  match goal with |- (if Rltb ?a 0 then _ else _) = _ => replace (Rltb a 0) with true; [reflexivity|] end.
  symmetry. apply Rltb_true.
  assert (Hsg : Rsignum (hh st) * hh st = Rabs (hh st)).
  { unfold Rsignum. destruct (Rlt_dec (hh st) 0); unfold Rabs; destruct (Rcase_abs (hh st)); lra. }
  set (F := 100 * eps * (Rabs (tn (nlp st)) + Rabs (hh st))) in *.
  replace ((tout - (tn (nlp st) - hused st - F * Rsignum (hh st))) * hh st)
    with ((tout - (tn (nlp st) - hused st)) * hh st + F * (Rsignum (hh st) * hh st)) by ring.
  rewrite Hsg. lra.
Qed.
Theorem C52_before_last_step c yy0 yp0 (st : state) fuel rfuel tout tret :
  config_ok c -> num_roots prob = 0%nat -> reach prob ewt_set c yy0 yp0 st -> steps (tr st) <> [] ->
  before_last_step st tout ->
  exists st', solve prob ewt_set fuel rfuel st tout tret Normal =
      Ret (st', tret, Err (EIda (BadTimeValue tout (get_current_time st - hused st) (get_current_time st)))) /\
    unmoved st st' /\ tretlast st' = tretlast st.
Proof.
  intros Hc Hnr Hr Hs Hb.
  destruct (reach_ordJ prob ewt_set Hl _ _ _ _ Hc Hr) as (O & L & Rl).
  assert (Hz : nst st <> 0%nat) by (pose proof (tl_n _ _ _ _ L) as N; intros Z; rewrite Z in N; apply Hs, length_zero_iff_nil, N).
  pose proof (reach_nrtfn prob ewt_set Hl _ _ _ _ Hc Hr) as Hf. rewrite Hnr in Hf.
  pose proof (reach_past _ _ _ _ Hc Hr Hz) as Hp. pose proof (hused_sign _ _ _ _ Hc Hr Hz) as Hsg.
  pose proof (before_check _ _ Hb) as Hk. pose proof (tretlast_ok _ _ _ _ Hc Hnr Hr Hz) as Ht.
  rewrite later_eq by assumption. unfold stop_test1. cbv zeta.
  assert (Hne : (tout =? tretlast st)%sc = false).
  { apply Reqb_false. intros ->. congruence. }
  assert (Hge : (szero <=? (tn (nlp st) - tout) * hh st)%sc = true).
  { apply Rleb_true. unfold before_last_step, get_current_time, get_current_setp in Hb.
    pose proof eps_pos as (P & _). pose proof (Rabs_pos (tn (nlp st))). pose proof (Rabs_pos (hh st)).
    assert (0 <= 100 * eps * (Rabs (tn (nlp st)) + Rabs (hh st)) * Rabs (hh st)) by (repeat apply Rmult_le_pos; lra).
    cbn. lra. }
  set (x := asked st tout Normal).
  change (tretlast x) with (tretlast st). rewrite Hne.
  change (tn (nlp x)) with (tn (nlp st)). change (hh x) with (hh st). rewrite Hge.
  change (tstop x) with (tstop st). unfold past_tstop in Hp. rewrite Hp.
  destruct O as (A & M & _ & K & _).
  assert (Ax : arrays x) by exact A.
  assert (Kx : (kused x <= 5)%nat) by (change (kused st <= 5)%nat; lia).
  destruct (gs_ret prob x tout Ax Kx) as (g & Eg).
  assert (Hkx : time_check x tout = time_check st tout) by reflexivity.
  pose proof (gs_eval prob x g tout _ Ax Kx Eg) as V. rewrite Hkx, Hk in *. destruct V as (V & _).
  rewrite Eg. cbn [bind]. exists g. split; [reflexivity|]. rewrite V. split; [|reflexivity]. repeat split.
Qed.

End OverR.

(** ** Instances over the reals *)
Local Instance NLS0 : NLSolver R (script R) := ScriptNLS [].

(** Three steps taken; then times before and inside the last step. *)
Lemma three_then : exists st : ida R (list nat) (script R),
  @reach R (list nat) (script R) _ _ NLS0 scalarR ewtR (configR None 0) [0] [1] st /\ nst st = 3%nat /\
  steps (trace (lp (nlp st))) <> [] /\ 0 < hh st * hused st /\ tretlast st = tn (nlp st).
Proof.
  destruct (lives [] None 0 (Rle_refl 0) ltac:(discriminate) 3 ltac:(left; reflexivity) eq_refl) as (st & (Hr & _ & Hg) & Hn).
  destruct Hg as [(x & Ex & ->)|(_ & _ & Hg)].
  { exfalso. pose proof (new_fields _ _ _ _ Ex) as Nf. assert (nst x = 0%nat) by tauto. change (nst x = 3%nat) in Hn. congruence. }
  pose proof (@script_lawful R _ []) as Hl. exists st. split; [exact Hr|]. split; [exact Hn|].
  split; [pose proof (steps_nst [] None 0 st Hr) as Q; intros Z; rewrite Z, Hn in Q; discriminate|].
  split; [|exact Hg]. apply (hused_sign scalarR ewtR Hl (configR None 0) [0] [1]); [apply configR_ok|exact Hr|lia].
Qed.

Example C45_outputs_hypotheses_met : exists (st st' : ida R (list nat) (script R)) tout t,
  config_ok (configR None 0) /\ @reach R (list nat) (script R) _ _ NLS0 scalarR ewtR (configR None 0) [0] [1] st /\
  tout <> tretlast st /\
  @solve R (list nat) (script R) _ _ NLS0 scalarR ewtR 600 100 st tout 0 Normal = Ret (st', t, Ok Success).
Proof.
  destruct three_then as (st & Hr & Hn & Hs & Hsg & Ht). pose proof (@script_lawful R _ []) as Hl.
  destruct (reach_ordJ scalarR ewtR Hl _ _ _ _ (configR_ok None 0) Hr) as (O & L & Rl).
  pose proof (reach_nrtfn scalarR ewtR Hl _ _ _ _ (configR_ok None 0) Hr) as Hf.
  pose proof (reach_past scalarR ewtR Hl _ _ _ _ (configR_ok None 0) Hr ltac:(lia)) as Hp.
  set (tout := tn (nlp st) - hused st / 2).
  assert (Hne : tout <> tretlast st) by (rewrite Ht; unfold tout; nra).
  assert (Hk : time_check st tout = None).
  { apply time_ok; [exact Hsg|]. unfold tout. pose proof eps_pos as (P & _). pose proof (Rabs_pos (tn (nlp st))). pose proof (Rabs_pos (hh st)).
    assert (0 <= 100 * eps * (Rabs (tn (nlp st)) + Rabs (hh st)) * Rabs (hh st)) by (repeat apply Rmult_le_pos; lra). nra. }
  assert (E : exists st', @solve R (list nat) (script R) _ _ NLS0 scalarR ewtR 600 100 st tout 0 Normal = Ret (st', tout, Ok Success)).
  { rewrite later_eq; [|lia|exact Hf]. unfold stop_test1. cbv zeta.
    assert (Hge : (szero <=? (tn (nlp st) - tout) * hh st)%sc = true) by (apply Rleb_true; unfold tout; cbn; nra).
    set (x := asked st tout Normal). clearbody tout.
    change (tretlast x) with (tretlast st). change (tn (nlp x)) with (tn (nlp st)). change (hh x) with (hh st).
    change (tstop x) with (tstop st). unfold past_tstop in Hp. rewrite Hp.
    replace (tout =? tretlast st)%sc with false by (symmetry; apply Reqb_false; exact Hne).
    rewrite Hge.
    destruct O as (A & M & _ & K & _).
    destruct (gs_ret scalarR x tout A ltac:(change (kused st <= 5)%nat; lia)) as (g & Eg).
    change (time_check x tout) with (time_check st tout) in Eg. rewrite Hk in Eg. rewrite Eg. cbn [bind]. eexists. reflexivity. }
  destruct E as (st' & E). exists st, st', tout, tout. split; [apply configR_ok|]. auto.
Qed.

Example C51_hypotheses_met : exists (st st' : ida R (list nat) (script R)) tout t,
  config_ok (configR None 0) /\ g_tstop (configR None 0) = None /\ num_roots scalarR = 0%nat /\ (tout =? tout)%sc = true /\
  @reach R (list nat) (script R) _ _ NLS0 scalarR ewtR (configR None 0) [0] [1] st /\
  @solve R (list nat) (script R) _ _ NLS0 scalarR ewtR 600 100 st tout 0 Normal = Ret (st', t, Ok Success).
Proof.
  destruct C45_outputs_hypotheses_met as (st & st' & tout & t & H1 & H2 & _ & H4). exists st, st', tout, t.
  split; [exact H1|]. split; [reflexivity|]. split; [reflexivity|]. split; [apply Reqb_true; reflexivity|]. auto.
Qed.

Example C52_hypotheses_met : exists (st : ida R (list nat) (script R)) tout,
  config_ok (configR None 0) /\ num_roots scalarR = 0%nat /\
  @reach R (list nat) (script R) _ _ NLS0 scalarR ewtR (configR None 0) [0] [1] st /\
  steps (trace (lp (nlp st))) <> [] /\ before_last_step st tout.
Proof.
  destruct three_then as (st & Hr & Hn & Hs & Hsg & Ht).
  exists st, (tn (nlp st) - hused st - (100 * eps * (Rabs (tn (nlp st)) + Rabs (hh st)) + 1) * Rsignum (hh st)).
  split; [apply configR_ok|]. split; [reflexivity|]. split; [exact Hr|]. split; [exact Hs|].
  unfold before_last_step, get_current_time, get_current_setp.
  assert (Hg : Rsignum (hh st) * hh st = Rabs (hh st)).
  { unfold Rsignum. destruct (Rlt_dec (hh st) 0); unfold Rabs; destruct (Rcase_abs (hh st)); lra. }
  assert (hh st <> 0) by nra. pose proof (Rabs_pos_lt _ H).
  set (F := 100 * eps * (Rabs (tn (nlp st)) + Rabs (hh st))).
  replace ((tn (nlp st) - hused st - (F + 1) * Rsignum (hh st) - (tn (nlp st) - hused st)) * hh st)
    with (- (F + 1) * (Rsignum (hh st) * hh st)) by ring. rewrite Hg. lra.
Qed.

(** ** Instances over binary64 *)
Section Floats.
Set Warnings "-inexact-float".
Local Open Scope float_scope.

Lemma life_then prob ew c yy0 yp0 cs tout itask (p : fstate -> fstate -> float -> result solve_status (err float) -> bool) :
  life_test prob ew c yy0 yp0 600 100 cs
    (fun st _ => match solve prob ew 600 100 st tout 0 itask with Ret (st', t, r) => p st st' t r | _ => false end) = true ->
  exists st st' t r, reach prob ew c yy0 yp0 st /\ solve prob ew 600 100 st tout 0 itask = Ret (st', t, r) /\ p st st' t r = true.
Proof.
  intros E. destruct (life_test_ok _ _ _ _ _ _ _ _ _ E) as (st & rs & Hr & Ht).
  destruct (solve prob ew 600 100 st tout 0 itask) as [((st' & t) & r)| |] eqn:Es; try discriminate.
  exists st, st', t, r. auto.
Qed.

(** The Roberts problem without its root functions, and a stop time. *)
Definition roberts0 : problem float := mkproblem 3 0 (p_res robertsF) (p_jac robertsF) (fun _ _ _ _ => 0).
Definition robertsS (ts : float) : config :=
  mkconfig 5 500 10 10 0 0 0.33 0 (Some ts) false (repeat false 3) [].

(** A first call for the initial time. *)
Example C17_hypotheses_met : config_ok (robertsS 1) /\ exists st : fstate, reach roberts0 roberts_ewt (robertsS 1) [1; 0; 0] [-0.04; 0.04; 0] st /\
  steps (trace (lp (nlp st))) = [] /\ too_close (get_current_time st) 0 = true.
Proof.
  split; [unfold config_ok; cbn; lia|].
  destruct (life_test_ok roberts0 roberts_ewt (robertsS 1) [1; 0; 0] [-0.04; 0.04; 0] 600 100 []
    (fun st _ => match steps (trace (lp (nlp st))) with [] => too_close (get_current_time st) 0 | _ => false end))
    as (st & rs & Hr & Ht); [vm_compute; reflexivity|].
  exists st. destruct (steps _); [auto|discriminate].
Qed.

(** Past the requested time the stop time is reached; a call consumes it. *)
Example C50_hypotheses_met : config_ok (robertsS 0.01) /\ exists st st' t : _,
  reach roberts0 roberts_ewt (robertsS 0.01) [1; 0; 0] [-0.04; 0.04; 0] st /\
  solve roberts0 roberts_ewt 600 100 st 1 0 Normal = Ret (st', t, Ok TStop).
Proof.
  split; [unfold config_ok; cbn; lia|].
  destruct (life_then roberts0 roberts_ewt (robertsS 0.01) [1; 0; 0] [-0.04; 0.04; 0] [CallSolve 0.001 0 Normal] 1 Normal
    (fun _ _ _ r => match r with Ok TStop => true | _ => false end)) as (st & st' & t & r & Hr & E & Ht); [vm_compute; reflexivity|].
  destruct r as [[]|]; try discriminate. exists st, st', t. auto.
Qed.

(** C50 fails for [OneStep]: the stop time was reached by a [Normal] call asked for
    an earlier time; [OneStep] first returns the end of that step, then the stop
    time, without clearing it, again and again. *)
Theorem C50_refuted : exists c yy0 yp0 (st st' : fstate) t, config_ok c /\ num_roots roberts0 = 0%nat /\
  reach roberts0 roberts_ewt c yy0 yp0 st /\
  solve roberts0 roberts_ewt 600 100 st 1 0 OneStep = Ret (st', t, Ok TStop) /\
  length (steps (trace (lp (nlp st')))) = length (steps (trace (lp (nlp st)))) /\ tstop st' <> None /\
  forall fuel rfuel tout tret, exists st'',
    solve roberts0 roberts_ewt fuel rfuel st' tout tret OneStep = Ret (st'', t, Ok TStop) /\ unmoved st' st''.
Proof.
  assert (Hc : config_ok (robertsS 0.01)) by (unfold config_ok; cbn; lia).
  destruct (life_then roberts0 roberts_ewt (robertsS 0.01) [1; 0; 0] [-0.04; 0.04; 0]
    [CallSolve 0.00999 0 Normal; CallSolve 1 0 OneStep] 1 OneStep
    (fun st st' _ r => match r with Ok TStop => (nst st =? nst st')%nat | _ => false end)) as (st & st' & t & r & Hr & E & Ht); [vm_compute; reflexivity|].
  destruct r as [[]|]; try discriminate. apply Nat.eqb_eq in Ht.
  pose proof (@newton_lawful float _ 20) as Hl.
  assert (Hr' : reach roberts0 roberts_ewt (robertsS 0.01) [1; 0; 0] [-0.04; 0.04; 0] st') by (eapply reach_next; eassumption).
  assert (Hs : length (steps (trace (lp (nlp st')))) = length (steps (trace (lp (nlp st))))).
  { destruct (reach_ordT _ _ Hl _ _ _ _ Hc Hr) as (_ & L). destruct (reach_ordT _ _ Hl _ _ _ _ Hc Hr') as (_ & L').
    rewrite (tl_n _ _ _ _ L), (tl_n _ _ _ _ L'). congruence. }
  destruct (C50_one_step_stuck roberts0 roberts_ewt Hl _ _ _ _ _ _ _ _ _ _ Hc eq_refl Hr E Hs) as (Q1 & Q2).
  exists (robertsS 0.01), [1; 0; 0], [-0.04; 0.04; 0], st, st', t.
  split; [exact Hc|]. split; [reflexivity|]. split; [exact Hr|]. split; [exact E|]. split; [exact Hs|]. split; [congruence|exact Q2].
Qed.

(** Relative tolerance below the unit roundoff. *)
Example C54_hypotheses_met : config_ok (robertsS 1) /\ exists (st st' : fstate) t te,
  reach roberts0 (ewt_set_ss 1e-18 1e-20) (robertsS 1) [1; 0; 0] [-0.04; 0.04; 0] st /\
  solve roberts0 (ewt_set_ss 1e-18 1e-20) 600 100 st 1 0 Normal = Ret (st', t, Err (EIda (TooMuchAccuracy te))).
Proof.
  split; [unfold config_ok; cbn; lia|].
  destruct (life_then roberts0 (ewt_set_ss 1e-18 1e-20) (robertsS 1) [1; 0; 0] [-0.04; 0.04; 0] [] 1 Normal
    (fun _ _ _ r => match r with Err (EIda (TooMuchAccuracy _)) => true | _ => false end)) as (st & st' & t & r & Hr & E & Ht); [vm_compute; reflexivity|].
  destruct r as [|[[]| | ]]; try discriminate. eexists st, st', t, _. split; [exact Hr|exact E].
Qed.
End Floats.

Print Assumptions C17_too_close.
Print Assumptions C50_tstop_cleared_partial.
Print Assumptions C50_one_step_stuck.
Print Assumptions C50_refuted.
Print Assumptions C51_same_tout.
Print Assumptions C51_same_tout_R.
Print Assumptions C52_before_last_step.
Print Assumptions C54_steps_checked.
Print Assumptions C54_too_much_accuracy.
