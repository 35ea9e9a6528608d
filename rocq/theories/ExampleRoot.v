(** * ExampleRoot: lives over the reals with a root function
    The scalar equation of [ExampleR] with one root function g(t); the nonlinear
    solver makes zero corrections.  Used to show that hypotheses of theorems about
    rootfinding can be met. *)
Require Import List Arith Bool Lia Reals Lra Psatz.
Import ListNotations.
Require Import Verif.Base Verif.Scalar Verif.ScalarR Verif.Dense Verif.Norms Verif.NormsR Verif.Newton Verif.NewtonSpec Verif.IdaState
  Verif.IdaNls Verif.IdaCore Verif.IdaRoots Verif.IdaSolve Verif.IdaIo Verif.BaseFacts Verif.RSum Verif.NewtonFacts
  Verif.IdaFacts Verif.IdaLoops Verif.IdaStep Verif.IdaSpec Verif.IdaShell Verif.IdaReach Verif.IdaInv
  Verif.IdaCount Verif.IdaLife Verif.IdaTrace Verif.VecR Verif.IdaAccept Verif.IdaStepR Verif.IdaInterp Verif.IdaSafe Verif.IdaCall Verif.IdaCallR
  Verif.Script Verif.PropSafe Verif.PropSolve Verif.ExampleR Verif.PropStepR Verif.RootFacts Verif.RootWalk Verif.PropRoots Verif.PropReturn.
Open Scope R_scope.


(** ** Steps of a solver without corrections *)
Section Quiet.
Context {LSt : Type} `{LSolver R LSt}.
Local Instance NLS_0 : NLSolver R (script R) := ScriptNLS [].
Variable prob : problem R.
Notation state := (ida R LSt (script R)).
Let Hl : @nls_lawful R (script R) _ := script_lawful [].

Lemma quiet_accepts (st st1 : state) ck ek ek1 r :
  arrays st -> (kk st <= 5)%nat -> nls st = [] -> try_step prob st = Ret (st1, ck, ek, ek1, r) -> r = Ok tt.
Proof.
  intros Ha Hk Hn E. destruct (script_try [] _ _ _ _ _ _ _ E) as (_ & P & _). destruct (P Hn) as (P1 & P2).
  pose proof (try_step_spec prob Hl _ _ _ _ _ _ Ha Hk E) as Htr. pose proof (tr_res _ _ _ _ _ Htr) as Q.
  destruct r as [[]|[[]| |]]; try contradiction; [reflexivity| |exfalso; eapply P2; reflexivity].
  destruct Q as (_ & _ & Q). rewrite P1, zero_norm in Q. apply Rleb_false in Q. cbn in Q. lra.
Qed.

Lemma quiet_tries t0 (st st' : state) nef : arrays st -> (1 <= kk st <= maxord st)%nat -> (maxord st <= 5)%nat ->
  nls st = [] -> tries prob t0 st st' nef -> st' = st /\ nef = 0%nat.
Proof.
  intros Ha Hk Hm Hs. induction 1 as [|sa nef s1 ck ek ek1 sb Ht IH Et Htr Hn Hrt]; [auto|exfalso].
  destruct IH as (-> & ->). pose proof (quiet_accepts _ _ _ _ _ _ Ha ltac:(lia) Hs Et). discriminate.
Qed.

Lemma quiet_step fuel (st st' : state) r : ordok st -> nls st = [] -> step prob fuel st = Ret (st', r) ->
  r = Ok tt /\ nls st' = [] /\ hused st' = hh st /\ next_h (hmax_inv st) (hh st) (hh st').
Proof.
  intros Ho Hs E. pose proof (instep_init st Ho) as Hi.
  destruct (step_spec prob Hl _ _ _ _ Ho E) as (sta & nef & s1 & ck & ek & ek1 & r1 & Ht & Et & Htr & Hc).
  assert (Hn : nls (st_init st) = nls st) by (unfold st_init; cbv zeta; destruct (_ =? _)%nat; reflexivity).
  pose proof (is_max _ Hi). pose proof (is_kk _ Hi).
  destruct (quiet_tries _ _ _ _ (is_arr _ Hi) (is_kk _ Hi) (is_max _ Hi) ltac:(congruence) Ht) as (-> & ->).
  destruct (script_try [] _ _ _ _ _ _ _ Et) as (P1 & P2 & P3).
  pose proof (quiet_accepts _ _ _ _ _ _ (is_arr _ Hi) ltac:(lia) ltac:(congruence) Et) as ->.
  assert (N1 : nls s1 = []) by (rewrite P1, Hn, Hs; reflexivity).
  destruct Hc as [(_ & -> & st2 & Hcp & ->)|(e & D & _)]; [|discriminate].
  pose proof (cp_keep _ _ _ Hcp) as K. split; [reflexivity|].
  change (nls (st_commit prob ck st2)) with (nls st2).
  change (hused (st_commit prob ck st2)) with (hused st2). change (hh (st_commit prob ck st2)) with (hh st2).
  pose proof (cp_used _ _ _ Hcp) as Ku. pose proof (cp_hh _ _ _ Hcp) as Kh. pose proof (tr_h _ _ _ _ _ Htr) as Kt.
  pose proof (tr_cfg _ _ _ _ _ Htr) as Kc.
  assert (Hhm : hmax_inv s1 = hmax_inv (st_init st)) by (unfold cfg in Kc; congruence).
  injection K as K1 K3 K4 K5 K6 K7 K8 K9. injection Ku as Ku1 Ku2 Ku3. injection Kt as Kt1 Kt2 Kt3.
  split; [congruence|]. rewrite Ku2, Kt1. rewrite Hhm, Kt1 in Kh.
  assert (Hh0 : hh (st_init st) = hh st /\ hmax_inv (st_init st) = hmax_inv st) by (unfold st_init; cbv zeta; destruct (_ =? _)%nat; auto).
  destruct Hh0 as (Hh0 & <-). rewrite <- Hh0. split; [reflexivity|exact Kh].
Qed.

Lemma ewt_norm_any idm y : wrms_norm idm y (ewtR y) false <= 1.
Proof.
  destruct y as [|a y]; [|apply ewtR_norm; cbn; lia].
  unfold wrms_norm. rewrite norm_wrms_eq. unfold wrms. cbn. unfold Rdiv. rewrite Rmult_0_l, sqrt_0. lra.
Qed.

Lemma quiet_pre (st : state) tret nl x : mxstep st = 500%nat -> suppressalg st = false -> (nl < 500)%nat ->
  (nst st = 0%nat -> ewt (nlp st) = ewtR (row (phi st) 0)) ->
  pre_step prob ewtR st tret nl = Ret x -> exists s, x = inr s.
Proof.
  intros Hm Hsup Hlen Hw E.
  assert (W : next_w ewtR st = ewtR (row (phi st) 0)).
  { unfold next_w. destruct (Nat.eqb_spec (nst st) 0); auto. }
  destruct (pre_step_cases _ _ _ _ _ _ E) as [(Q & _)|(_ & [(_ & Q & _)|(_ & [(Q & _)|(_ & s & _ & _ & Q)])])].
  - lia.
  - exfalso. rewrite W in Q. change (existsb (fun x => Rleb x 0) (ewtR (row (phi st) 0)) = true) in Q. rewrite ewtR_pos in Q. discriminate.
  - exfalso. unfold next_norm in Q. rewrite W, Hsup in Q. change (Rltb 1 (eps * wrms_norm (idv st) (row (phi st) 0) (ewtR (row (phi st) 0)) false) = true) in Q.
    apply Rltb_true in Q. pose proof (ewt_norm_any (idv st) (row (phi st) 0)).
    pose proof (wrms_norm_nonneg (idv st) (row (phi st) 0) (ewtR (row (phi st) 0)) false). pose proof eps_pos. nra.
  - eauto.
Qed.
End Quiet.

(** ** The example *)
Section Life.
Local Instance NLS_Q : NLSolver R (script R) := ScriptNLS [].
Variable g : R -> R.
Definition rootR : problem R := mkproblem 1 1 (fun _ _ _ _ => 0) (fun _ _ _ _ _ _ _ => 1) (fun t _ _ _ => g t).
Definition configQ : @config R := mkconfig 5 500 10 10 (1 / 2) 0 (33 / 100) 0 None false [false] [0%nat].
Notation state := (ida R (list nat) (script R)).
Notation tr st := (trace (lp (nlp st))).
Notation reached := (reach rootR ewtR configQ [0] [1]).
Let Hl : @nls_lawful R (script R) _ := script_lawful [].

Lemma configQ_ok : config_ok configQ.
Proof. unfold config_ok. cbn. lia. Qed.

Lemma root_calls (st : state) tout itask : reached st -> exists N st' t r, forall rfuel, (N <= rfuel)%nat ->
  solve rootR ewtR 600 rfuel st tout 0 itask = Ret (st', t, r).
Proof.
  intros Hr. apply (C47_solve_returns_reals rootR ewtR Hl (script_setup_total []) (fun s x => script_solve_total rootR [] s x)
    configQ [0] [1] st 600 tout 0 itask configQ_ok Hr). cbn. lia.
Qed.


Definition tk (st : state) := (irfnd st, taskc st, toutc st).

Lemma r_check1_irf (st st' : state) : r_check1 rootR st = Ret st' -> tk st' = tk st.
Proof.
  unfold r_check1. intros E. cbv zeta in E.
  set (s1 := set_ttol _ _) in E. assert (F1 : tk s1 = tk st) by reflexivity. clearbody s1.
  apply bind_ret_inv in E. destruct E as (p0 & _ & E). cbv beta in E.
  apply bind_ret_inv in E. destruct E as (p1 & _ & E). cbv beta in E.
  destruct (call_root rootR s1 (tlo s1) p0 p1) as (s2 & g2) eqn:Ec.
  assert (F2 : tk s2 = tk s1) by (unfold call_root in Ec; injection Ec as <- _; reflexivity).
  set (s3 := set_nge 1 (set_glo g2 s2)) in E. assert (F3 : tk s3 = tk s2) by reflexivity. clearbody s3.
  set (s4 := set_gactive _ s3) in E. assert (F4 : tk s4 = tk s3) by reflexivity. clearbody s4.
  destruct (existsb _ _) in E; [|apply ret_inj in E; congruence].
  set (s5 := on_nlp _ s4) in E. assert (F5 : tk s5 = tk s4) by reflexivity. clearbody s5.
  destruct (call_root rootR s5 _ _ p1) as (s6 & g3) eqn:Ed.
  assert (F6 : tk s6 = tk s5) by (unfold call_root in Ed; injection Ed as <- _; reflexivity).
  set (s7 := set_nge _ (set_ghi g3 s6)) in E. assert (F7 : tk s7 = tk s6) by reflexivity. clearbody s7.
  apply ret_inj in E. subst st'. transitivity (tk s7); [reflexivity|congruence].
Qed.

Lemma first_root (st : state) x : tn (nlp st) = 0 -> hin st = 1 / 2 -> hmax_inv st = 0 -> tstop st = None ->
  first_call rootR ewtR st 1 = Ret x -> exists s, x = inr s /\ hh s = 1 / 2 /\ tk s = tk st.
Proof.
  intros Ht Hh Hm Es E. unfold first_call in E.
  apply bind_ret_inv in E. destruct E as (s1 & E1 & E). cbv beta in E.
  assert (F : tn (nlp s1) = 0 /\ hin s1 = 1 / 2 /\ hmax_inv s1 = 0 /\ tstop s1 = None /\ tk s1 = tk st).
  { destruct (setup_done st); [injection E1 as <-; auto|].
    apply bind_ret_inv in E1. destruct E1 as (s2 & E2 & E1). cbv beta in E1. injection E1 as <-.
    unfold initial_setup in E2. apply bind_ret_inv in E2. destruct E2 as (p & _ & E2). cbv beta in E2. injection E2 as <-. auto. }
  destruct F as (F1 & F2 & F3 & F4 & F5). apply bind_ret_inv in E. destruct E as (r & Er & E). cbv beta in E.
  pose proof (first_step_frame _ _ _ Er) as Fr.
  assert (NT : forall x0, @None R = Some x0 -> 0 < x0) by (intros; discriminate).
  destruct (first_accepted None (1 / 2) ltac:(lra) NT s1 r F1 F2 F3 F4 Er) as (s2 & -> & Hs2).
  specialize (Hs2 ltac:(lra)). unfold first_h in Hs2. destruct Fr as (h & Fr).
  assert (I2 : tk s2 = tk s1) by (rewrite Fr; reflexivity). clear Fr. cbv zeta in E.
  apply bind_ret_inv in E. destruct E as (s3 & E3 & E). cbv beta in E.
  assert (Q : hh s3 = 1 / 2 /\ tk s3 = tk st).
  { set (sx := set_kused 0 (set_kk 0 (set_h0u (hh s2) s2))) in *. assert (X : hh sx = 1 / 2 /\ tk sx = tk st) by (unfold sx; split; [exact Hs2|transitivity (tk s2); [reflexivity|congruence]]).
    clearbody sx. destruct (0 <? nrtfn sx)%nat; [|apply ret_inj in E3; subst; exact X].
    pose proof (r_check1_irf _ _ E3). destruct (r_check1_frame _ _ _ E3) as ((C & _) & _).
    pose proof (core_fields _ _ C) as C'. split; [|destruct X; congruence]. destruct X as (X & _). rewrite <- X. tauto. }
  apply bind_ret_inv in E. destruct E as (p1 & _ & E). cbv beta in E.
  apply bind_ret_inv in E. destruct E as (p2 & _ & E). cbv beta zeta in E. apply ret_inj in E. subst x.
  eexists. split; [reflexivity|exact Q].
Qed.

(** The object at the head of the step loop, before and after the first step. *)
(** The call is one with output time 1. *)
Definition task1 (s : state) : Prop := taskc s = Normal -> toutc s = 1.

Record prim (s : state) : Prop := mkprim {
  pr_nst : nst s = 0%nat; pr_tn : tn (nlp s) = 0; pr_hh : hh s = 1 / 2; pr_nls : nls s = []; pr_ewt : ewt (nlp s) = ewtR (row (phi s) 0);
  pr_act : bget (gactive s) 0 = false; pr_irf : irfnd s = false; pr_task : task1 s; pr_glo : length (glo s) = 1%nat }.
Record sec (s : state) : Prop := mksec {
  se_nst : nst s = 1%nat; se_tn : tn (nlp s) = 1 / 2; se_hh : 1 / 4 <= hh s <= 1; se_nls : nls s = [];
  se_tlo : tlo s = 1 / 2; se_glo : vget (glo s) 0 = g (1 / 2);
  se_act : g (1 / 2) <> 0 -> bget (gactive s) 0 = true; se_irf : irfnd s = false; se_task : task1 s; se_len : length (glo s) = 1%nat }.

Lemma reached_cfg (st x : state) : reached st -> cfg x = cfg st ->
  mxstep x = 500%nat /\ suppressalg x = false /\ nrtfn x = 1%nat /\ hin x = 1 / 2 /\ hmax_inv x = 0 /\ rootdir x = [0%nat].
Proof.
  intros Hr Ex. pose proof (reach_tlink rootR ewtR Hl configQ configQ_ok [0] [1] st Hr) as Lk.
  pose proof (cfg_is_ext rootR configQ _ _ Ex (tl_cfg _ _ _ _ Lk)) as Q. unfold cfg_is in Q. cbn in Q. tauto.
Qed.

Record startable (st : state) : Prop := mkstartable {
  su_nst : nst st = 0%nat; su_tn : tn (nlp st) = 0; su_stop : tstop st = None; su_nls : nls st = []; su_irf : irfnd st = false;
  su_setup : setup_done st = false; su_phi : phi st = [0] :: [1] :: repeat (vzero 1) 4; su_act : gactive st = [false]; su_glo : glo st = [0] }.

Lemma startable_task st itask : startable st -> startable (task_set st 1 itask).
Proof. intros []. unfold task_set. destruct itask; constructor; assumption. Qed.

Lemma fresh_exists : exists st0 : state, ida_new rootR [0] [1] = Ret st0.
Proof. unfold ida_new. cbn. eexists. reflexivity. Qed.

Lemma fresh_startable (st0 : state) : ida_new rootR [0] [1] = Ret st0 -> startable (configure configQ st0).
Proof.
  intros En. unfold ida_new in En. destruct (_ && _); [|discriminate]. apply ret_inj in En. subst st0.
  constructor; reflexivity.
Qed.

Section Calls.
Hypothesis Hg0 : g 0 <> 0.

(** The first call of a fresh object starts stepping. *)
Lemma fresh_enters (st : state) : reached st -> startable st ->
  forall rfuel itask, (forall a, ~ answers rootR ewtR rfuel st 1 0 itask a) /\
    forall s0, enters rootR ewtR rfuel st 1 0 itask s0 -> prim s0.
Proof.
  intros Hr Su rfuel itask.
  assert (T1 : task1 (task_set st 1 itask)) by (destruct itask; [intros _; reflexivity|intros C; discriminate C]).
  destruct (startable_task _ itask Su) as [X9 X1 X2 X3 X4 X5 X6 X7 X8].
  pose proof (shell_cfg _ _ _ (task_set_shell rootR st 1 itask)) as S0. unfold answers, enters.
  set (sx := task_set st 1 itask) in *. clearbody sx.
  destruct (reached_cfg st sx Hr S0) as (_ & _ & _ & V1 & V2 & _).
  assert (Q : forall x, solve_start rootR ewtR rfuel sx 1 0 itask = Ret x -> exists s, x = inr (s, 0) /\ prim s).
  { intros x Ex. destruct (solve_start_cases _ _ _ _ _ _ _ _ Ex) as [(Hz & s & e & E1 & D)|[(Hz & s & l & E1 & E2 & E3 & E4 & D)|(Hz & _)]].
    - exfalso. destruct (first_root _ _ X1 V1 V2 X2 E1) as (q & C & _). discriminate.
    - exists (on_lp (fun _ => l) s). split; [exact D|]. destruct (first_root _ _ X1 V1 V2 X2 E1) as (q & C & K1 & K2). injection C as <-.
      pose proof (first_call_frame _ _ _ _ _ E1) as Fr. cbv zeta iota in Fr. destruct Fr as (Fk & _ & Fe & Fl & Fp & _).
      rewrite X6 in Fp. specialize (Fp ltac:(cbn; lia)). rewrite X5, X6 in Fe.
      assert (P : forall i, (i < 1)%nat -> bget (gactive s) i = false).
      { refine (first_call_P rootR ewtR sx (fun a => forall i, (i < 1)%nat -> bget (gactive a) i = false) _ _ sx 1 (inr s) X9 X9 eq_refl eq_refl eq_refl _ E1).
        - intros a b Ha (Eb & _) i Li. unfold rk in Eb. replace (gactive b) with (gactive a) by congruence. exact (Ha i Li).
        - intros a b _ _ Et Ep _ Ha Er i Li. destruct (r_check1_spec rootR a b Er) as (_ & _ & _ & _ & Y).
          rewrite (Y [0] [1]) with (i := i); [exact (Ha i Li)| | | |exact Li].
          + rewrite Ep, X6. reflexivity.
          + rewrite Ep, X6. reflexivity.
          + intros j _. rewrite Et, X1. exact Hg0.
        - intros i Li. rewrite X7. destruct i; [reflexivity|lia]. }
      unfold fkeep in Fk. pinj.
      constructor; [change (nst s = 0%nat); congruence|change (tn (nlp s) = 0); congruence|exact K1|change (nls s = []); congruence| |exact (P 0%nat ltac:(lia))|unfold tk in K2; change (irfnd s = false); congruence| |].
      + change (ewt (nlp s) = ewtR (row (phi s) 0)). rewrite Fe, Fp. reflexivity.
      + unfold tk in K2. injection K2 as _ K2 K3. unfold task1 in *. change (taskc s = Normal -> toutc s = 1). rewrite K2, K3. exact T1.
      + apply Fl. rewrite X8. reflexivity.
    - exfalso. exact (Hz X9). }
  split.
  - intros a A. destruct (Q _ A) as (s & C & _). discriminate.
  - intros s0 A. destruct (Q _ A) as (s & C & Hs). injection C as ->. exact Hs.
Qed.

Record passed (st s s2 : state) : Prop := mkpassed {
  pa_tn : tn (nlp s2) = tn (nlp s) + hh s; pa_used : hused s2 = hh s; pa_hh : hh s / 2 <= hh s2 <= 2 * hh s; pa_nst : nst s2 = S (nst s); pa_nls : nls s2 = [];
  pa_still : still s s2; pa_irf : irfnd s2 = irfnd s; pa_search : searchable rootR s2; pa_nr : nrtfn s2 = 1%nat;
  pa_dir : rootdir s2 = [0%nat]; pa_stop : tstop s2 = None; pa_pieces : pieces rootR ewtR st s2 }.

Lemma next_h_pos h h' : 0 < h -> next_h 0 h h' -> h / 2 <= h' <= 2 * h.
Proof.
  intros Hp [-> |[-> |(r & _ & ->)]]; [lra| |].
  - unfold dbl. cbn. rewrite Rmult_0_r. replace (Rltb 1 0) with false by (symmetry; apply Rltb_false; lra). lra.
  - cbn. change (h / 2 <= h * Rmax (/ 2) (Rmin r (9 / 10)) <= 2 * h). pose proof (Rmax_l (/ 2) (Rmin r (9 / 10))). pose proof (Rmin_r r (9 / 10)).
    assert (Rmax (/ 2) (Rmin r (9 / 10)) <= 9 / 10) by (apply Rmax_lub; lra). nra.
Qed.

Lemma pre_irf (s s1 : state) tret nl : pre_step rootR ewtR s tret nl = Ret (inr s1) -> irfnd s1 = irfnd s.
Proof.
  unfold pre_step. intros E. destruct (_ && _); [apply ret_inj in E; discriminate E|].
  apply bind_ret_inv in E. destruct E as (l & _ & E). cbv beta zeta in E.
  apply bind_ret_inv in E. destruct E as (r & Er & E). cbv beta in E.
  assert (Q : forall a, r = inr a -> irfnd a = irfnd s).
  { intros a ->. destruct (0 <? _)%nat; [|apply ret_inj in Er; injection Er as <-; reflexivity].
    apply bind_ret_inv in Er. destruct Er as (p0 & _ & Er). cbv beta zeta in Er. destruct (existsb _ _).
    - apply bind_ret_inv in Er. destruct Er as ((? & ?) & _ & Er). cbv beta zeta in Er. apply ret_inj in Er. discriminate Er.
    - apply ret_inj in Er; injection Er as <-; reflexivity. }
  destruct r as [a|a]; [apply ret_inj in E; discriminate E|]. specialize (Q _ eq_refl).
  apply bind_ret_inv in E. destruct E as (p0 & _ & E). cbv beta zeta in E. destruct (_ <? _)%sc.
  - apply bind_ret_inv in E. destruct E as (s2 & _ & E). cbv beta zeta in E. apply ret_inj in E. discriminate E.
  - apply ret_inj in E. injection E as <-. exact Q.
Qed.

Lemma pass_step (st s s1 s2 : state) rfuel itask nl r : reached st -> head rootR ewtR 1 itask st s -> nls s = [] ->
  length (glo s) = 1%nat -> 0 < hh s ->
  pre_step rootR ewtR s 0 nl = Ret (inr s1) -> step rootR rfuel s1 = Ret (s2, r) -> r = Ok tt /\ passed st s s2.
Proof.
  intros Hr Hd Hn Hg Hh Ep Es.
  destruct (reach_ordJ rootR ewtR Hl configQ [0] [1] st configQ_ok Hr) as (Ho & Hj).
  pose proof (pre_step_shell _ _ _ _ _ _ Ep) as (S1 & _).
  pose proof (hd_pieces _ _ _ _ _ _ Hd) as Pc. pose proof (pieces_shell _ _ _ _ _ Pc S1) as P1.
  destruct (pieces_J rootR ewtR Hl configQ st s1 Ho Hj P1) as (O1 & J1).
  pose proof (core_fields _ _ (sh_core _ _ _ S1)) as C1.
  assert (K1 : nls s1 = nls s) by (pose proof (sh_core _ _ _ S1) as C; unfold core in C; pinj; auto).
  assert (N1 : nls s1 = []) by congruence.
  destruct (quiet_step rootR rfuel s1 s2 r O1 N1 Es) as (-> & Q1 & Q2 & Q3).
  split; [reflexivity|].
  pose proof (head_step _ _ _ _ _ _ _ _ _ _ _ _ Hd Ep Es) as P2.
  destruct (step_nst rootR Hl _ _ _ _ O1 Es) as (Z1 & Z2).
  destruct (step_time_R rootR ewtR Hl configQ rfuel s1 s2 tt O1 J1 (shell_limited _ _ _ S1 (hd_lim _ _ _ _ _ _ Hd))
    (shell_fresh _ _ _ _ S1 (hd_fresh _ _ _ _ _ _ Hd)) Es) as (T1 & _).
  pose proof (still_pre rootR ewtR _ _ _ _ Ep) as St1. cbv iota in St1.
  pose proof (still_trans _ _ _ St1 (still_step rootR Hl _ _ _ _ O1 Es)) as St.
  pose proof (reach_tlink rootR ewtR Hl configQ configQ_ok [0] [1] st Hr) as Lk.
  pose proof (pieces_tlink rootR ewtR Hl configQ st s2 configQ_ok Ho Lk P2) as Lk2.
  pose proof (tl_cfg _ _ _ _ Lk2) as Cf. unfold cfg_is in Cf. cbn in Cf.
  assert (Hm : hmax_inv s1 = 0).
  { pose proof (tl_cfg _ _ _ _ (pieces_tlink rootR ewtR Hl configQ st s1 configQ_ok Ho Lk P1)) as Cg. unfold cfg_is in Cg. cbn in Cg. tauto. }
  assert (H1 : hh s1 = hh s /\ tn (nlp s1) = tn (nlp s) /\ nst s1 = nst s) by tauto. destruct H1 as (H1 & H2 & H3).
  rewrite Hm, H1 in Q3. destruct (next_h_pos _ _ Hh Q3) as (Y1 & Y2).
  assert (Gl : length (glo s2) = 1%nat). { destruct St as (E0 & _). unfold rk in E0. replace (glo s2) with (glo s) by congruence. exact Hg. }
  constructor.
  - rewrite T1, Q2, H1, H2. reflexivity.
  - congruence.
  - auto.
  - lia.
  - exact Q1.
  - exact St.
  - rewrite <- (pre_irf _ _ _ _ Ep). destruct (stepped_ord rootR _ _ _ O1 (step_spec rootR Hl _ _ _ _ O1 Es)) as (_ & _ & _ & Rt & _).
    unfold rootst in Rt. congruence.
  - exact (pieces_search rootR ewtR Hl configQ st s2 configQ_ok Ho Hj P2 (step_ok_nst _ _ _ _ _ Es) Gl).
  - tauto.
  - tauto.
  - destruct (tl_tstop _ _ _ _ Lk2) as [K|K]; exact K.
  - exact P2.
Qed.

Lemma still_task (a b : state) : still a b -> task1 a -> task1 b.
Proof. intros (E & _) T. unfold rk in E. unfold task1 in *. replace (taskc b) with (taskc a) by congruence. replace (toutc b) with (toutc a) by congruence. exact T. Qed.

Lemma first_post (st s s2 : state) rfuel itask st' t r : prim s -> passed st s s2 ->
  post_step rootR rfuel s2 1 0 itask = Ret (st', t, r) ->
  exists s3, r_check3 rootR rfuel s2 = Ret (s3, RootContinue) /\ sec s3 /\ tstop s3 = None /\ shell rootR s2 s3 /\
    stop_test2 rootR s3 1 0 itask = Ret (st', t, r).
Proof.
  intros Pr Pa E. unfold post_step in E. rewrite (pa_nr _ _ _ Pa) in E. cbn [Nat.ltb Nat.leb] in E.
  apply bind_ret_inv in E. destruct E as (y & Ey & E). cbv beta in E.
  apply bind_ret_inv in Ey. destruct Ey as ((s3 & r3) & E3 & Ey). cbv beta iota in Ey.
  pose proof (pa_search _ _ _ Pa) as Hs.
  assert (A2 : gactive s2 = gactive s). { destruct (pa_still _ _ _ Pa) as (E0 & _). unfold rk in E0. congruence. }
  destruct r3.
  { exfalso. destruct (C55_root_bracketed _ _ _ _ Hs E3) as (tl & gl & _ & _ & _ & Hflag & (i & Li & Hi) & _).
    apply Hflag in Hi; [|exact Li]. destruct Hi as ((Hi & _) & _). assert (i = 0%nat) by (cbn in Li; lia). subst i.
    rewrite A2, (pr_act _ Pr) in Hi. discriminate. }
  injection Ey as <-. exists s3. split; [exact E3|].
  destruct (C57_no_root_missed _ _ _ _ Hs E3) as (T1 & Y). destruct (Y 0%nat ltac:(cbn; lia)) as ((y & ypv & _ & Y1) & _).
  destruct (r_check3_spec rootR rfuel s2 (proj1 Hs) (proj1 (proj2 Hs)) (searchable_tol _ s2 Hs) (proj2 (proj2 (proj2 Hs)))) as [(Z & _)|(s4 & q & Z & Sh & Z1 & Z2 & _)]; [congruence|].
  rewrite E3 in Z. injection Z as <- _.
  pose proof (r_check3_kept _ _ _ _ _ E3) as K. unfold kept, outer in K.
  pose proof (core_fields _ _ (sh_core _ _ _ Sh)) as C1.
  assert (N1 : nls s3 = nls s2) by (pose proof (sh_core _ _ _ Sh) as C; unfold core in C; pinj; auto).
  assert (H1 : hh s3 = hh s2 /\ tn (nlp s3) = tn (nlp s2) /\ nst s3 = nst s2) by tauto. destruct H1 as (H1 & H2 & H3).
  pose proof (pa_tn _ _ _ Pa) as U1. rewrite (pr_tn _ Pr), (pr_hh _ Pr) in U1.
  pose proof (pa_hh _ _ _ Pa) as U2. rewrite (pr_hh _ Pr) in U2.
  assert (Re : right_end s2 = 1 / 2).
  { pose proof (still_task _ _ (pa_still _ _ _ Pa) (pr_task _ Pr)) as T. unfold right_end. destruct (taskc s2) eqn:Et; [|rewrite U1; lra].
    rewrite (T Et), U1. match goal with |- (if ?b then _ else _) = _ => change b with (Rleb 0 ((1 - (0 + 1 / 2)) * hh s2)) end.
    replace (Rleb 0 _) with true; [lra|]. symmetry. apply Rleb_true. nra. }
  rewrite Re in T1, Y1. cbn in Y1.
  split; [|split; [|split; [exact Sh|exact E]]].
  - constructor.
    + rewrite H3, (pa_nst _ _ _ Pa), (pr_nst _ Pr). reflexivity.
    + rewrite H2, U1. lra.
    + rewrite H1. lra.
    + rewrite N1. exact (pa_nls _ _ _ Pa).
    + exact T1.
    + exact Y1.
    + intros Hn. apply Z2; [cbn; lia|]. right. rewrite Y1. exact Hn.
    + replace (irfnd s3) with (irfnd s2) by congruence. rewrite (pa_irf _ _ _ Pa). exact (pr_irf _ Pr).
    + pose proof (still_task _ _ (pa_still _ _ _ Pa) (pr_task _ Pr)) as T. unfold task1 in *.
      replace (taskc s3) with (taskc s2) by congruence. replace (toutc s3) with (toutc s2) by congruence. exact T.
    + exact Z1.
  - replace (tstop s3) with (tstop s2) by congruence. exact (pa_stop _ _ _ Pa).
Qed.

Lemma stop2_none (s : state) : tstop s = None -> stop2_tstop rootR s = Ret (inr s).
Proof. intros E. unfold stop2_tstop. rewrite E. reflexivity. Qed.

(** The object on the first pass. *)
Lemma first_normal (s st' : state) t r : sec s -> tstop s = None -> stop_test2 rootR s 1 0 Normal = Ret (st', t, r) ->
  st' = s /\ t = 0 /\ r = Ok ContinueSteps.
Proof.
  intros Se Ts E. unfold stop_test2 in E. rewrite (se_tn _ Se) in E.
  match type of E with (if ?b then _ else _) = _ => change b with (Rleb 0 ((1 / 2 - 1) * hh s)) in E end.
  replace (Rleb 0 _) with false in E.
  2:{ symmetry. apply Rleb_false. pose proof (se_hh _ Se). nra. }
  rewrite stop2_none in E by exact Ts. cbn [bind] in E. apply ret_inj in E. injection E as -> -> ->. auto.
Qed.

Lemma first_onestep (s st' : state) t r : sec s -> tstop s = None -> stop_test2 rootR s 1 0 OneStep = Ret (st', t, r) ->
  st' = set_tretlast (1 / 2) s /\ t = 1 / 2 /\ r = Ok Success.
Proof.
  intros Se Ts E. unfold stop_test2 in E. rewrite stop2_none in E by exact Ts. cbn [bind] in E. rewrite (se_tn _ Se) in E.
  apply ret_inj in E. injection E as -> -> ->. auto.
Qed.

(** The second step reaches 3/4; the search ends there or at 1. *)
Lemma second_end (st s s2 : state) : sec s -> passed st s s2 ->
  3 / 4 <= tn (nlp s2) <= 3 / 2 /\ 3 / 4 <= right_end s2 <= 3 / 2 /\ (taskc s2 = Normal -> right_end s2 <= 1) /\
  vget (glo s2) 0 = g (1 / 2) /\ (g (1 / 2) <> 0 -> bget (gactive s2) 0 = true) /\ tlo s2 = 1 / 2.
Proof.
  intros Se Pa. pose proof (pa_tn _ _ _ Pa) as U1. rewrite (se_tn _ Se) in U1. pose proof (se_hh _ Se) as Hh.
  split; [lra|]. pose proof (pa_hh _ _ _ Pa) as U2.
  pose proof (still_task _ _ (pa_still _ _ _ Pa) (se_task _ Se)) as T.
  destruct (pa_still _ _ _ Pa) as (E0 & _). unfold rk in E0.
  replace (glo s2) with (glo s) by congruence. replace (gactive s2) with (gactive s) by congruence. replace (tlo s2) with (tlo s) by congruence.
  rewrite (se_tlo _ Se).
  assert (Q : 3 / 4 <= right_end s2 <= 3 / 2 /\ (taskc s2 = Normal -> right_end s2 <= 1)).
  { unfold right_end. destruct (taskc s2) eqn:Et; [|split; [lra|discriminate]]. rewrite (T Et).
    match goal with |- context [if ?b then _ else _] => change b with (Rleb 0 ((1 - tn (nlp s2)) * hh s2)) end.
    destruct (Rleb 0 ((1 - tn (nlp s2)) * hh s2)) eqn:Ez; [|lra]. apply Rleb_true in Ez.
    assert (0 < hh s2) by lra. assert (tn (nlp s2) <= 1) by nra. split; [lra|auto]. }
  split; [tauto|]. split; [tauto|]. split; [exact (se_glo _ Se)|]. split; [exact (se_act _ Se)|reflexivity].
Qed.

(** One call with [Normal]: a root between 1/2 and 3/4 is reported. *)
Hypothesis Hpos : 0 < g (1 / 2).

Lemma second_found (st s s2 : state) rfuel itask st' t r : sec s -> passed st s s2 -> (forall t, 3 / 4 <= t <= 3 / 2 -> g t < 0) ->
  post_step rootR rfuel s2 1 0 itask = Ret (st', t, r) ->
  r = Ok RootReturn /\ exists s3, r_check3 rootR rfuel s2 = Ret (s3, RootFound).
Proof.
  intros Se Pa Hn E. unfold post_step in E. rewrite (pa_nr _ _ _ Pa) in E. cbn [Nat.ltb Nat.leb] in E.
  apply bind_ret_inv in E. destruct E as (y & Ey & E). cbv beta in E.
  apply bind_ret_inv in Ey. destruct Ey as ((s3 & r3) & E3 & Ey). cbv beta iota in Ey.
  destruct r3.
  { injection Ey as <-. injection E as _ _ <-. split; [reflexivity|]. exists s3. exact E3. }
  exfalso. pose proof (pa_search _ _ _ Pa) as Hs. destruct (second_end _ _ _ Se Pa) as (_ & (R1 & R2) & _ & G1 & G2 & _).
  destruct (C57_no_root_missed _ _ _ _ Hs E3) as (T1 & Y). destruct (Y 0%nat ltac:(cbn; lia)) as ((y' & ypv & _ & Y1) & _ & Y2).
  cbn in Y1. specialize (Hn _ (conj R1 R2)). rewrite G1 in Y2.
  destruct Y2 as (_ & Y2). { split; [apply G2; lra|left; rewrite (pa_dir _ _ _ Pa); reflexivity]. }
  rewrite Y1 in Y2. nra.
Qed.

Lemma normal_loops (st s0 s : state) rfuel nl : reached st -> head rootR ewtR 1 Normal st s0 -> prim s0 ->
  (forall t, 3 / 4 <= t <= 3 / 2 -> g t < 0) ->
  loops rootR ewtR rfuel 1 Normal 0 s0 s nl -> head rootR ewtR 1 Normal st s /\ (s = s0 /\ nl = 0%nat \/ sec s /\ nl = 1%nat).
Proof.
  intros Hr Hd Pr Hn. induction 1 as [|s nl s1 s2 u s' Lo IH Ep Es Ef]; [auto|].
  destruct IH as (Hs & Hc). destruct Hc as [(-> & ->)|(Se & ->)].
  - destruct (pass_step _ _ _ _ _ _ _ _ Hr Hs (pr_nls _ Pr) (pr_glo _ Pr) ltac:(rewrite (pr_hh _ Pr); lra) Ep Es) as (_ & Pa).
    destruct (reach_ordJ rootR ewtR Hl configQ [0] [1] st configQ_ok Hr) as (Ho & Hj).
    split; [exact (head_next rootR ewtR st _ _ _ _ _ _ _ _ _ _ _ Hs Ep Es Ef)|]. right.
    destruct (first_post _ _ _ _ _ _ _ _ Pr Pa Ef) as (s3 & _ & Se & Ts & _ & E4).
    destruct (first_normal _ _ _ _ Se Ts E4) as (-> & _). auto.
  - exfalso. pose proof (se_hh _ Se).
    destruct (pass_step _ _ _ _ _ _ _ _ Hr Hs (se_nls _ Se) (se_len _ Se) ltac:(lra) Ep Es) as (_ & Pa).
    destruct (second_found _ _ _ _ _ _ _ _ Se Pa Hn Ef) as (C & _). discriminate.
Qed.

Lemma L0 : (0 < 500)%nat. Proof. lia. Qed.
Lemma L1 : (1 < 500)%nat. Proof. lia. Qed.

(** A pass that ends the call completes its step. *)
Lemma last_pass (st s : state) rfuel itask nl m st' t r : reached st -> head rootR ewtR 1 itask st s -> nls s = [] -> (nl < 500)%nat ->
  (nst s = 0%nat -> ewt (nlp s) = ewtR (row (phi s) 0)) -> length (glo s) = 1%nat -> 0 < hh s ->
  ends rootR ewtR rfuel 1 itask 0 s nl m st' t r ->
  r <> Ok ContinueSteps /\ exists s2, passed st s s2 /\ post_step rootR rfuel s2 1 0 itask = Ret (st', t, r).
Proof.
  intros Hr Hd Hn Hl' Hw Hg Hh F.
  destruct (reach_ordJ rootR ewtR Hl configQ [0] [1] st configQ_ok Hr) as (Ho & _).
  pose proof (reach_tlink rootR ewtR Hl configQ configQ_ok [0] [1] st Hr) as Lk.
  pose proof (tl_cfg _ _ _ _ (pieces_tlink rootR ewtR Hl configQ st s configQ_ok Ho Lk (hd_pieces _ _ _ _ _ _ Hd))) as Cg.
  unfold cfg_is in Cg. cbn in Cg.
  inversion F as [x1 x2 x3 Ep|s1 s2 e x1 x2 x3 Ep Es Ef|s1 s2 u x1 x2 x3 Ep Es Ef Hne]; subst.
  - exfalso. destruct (quiet_pre rootR s 0 nl _ ltac:(tauto) ltac:(tauto) Hl' Hw Ep) as (q & C). discriminate.
  - exfalso. destruct (pass_step _ _ _ _ _ _ _ _ Hr Hd Hn Hg Hh Ep Es) as (C & _). discriminate.
  - split; [exact Hne|]. exists s2. destruct (pass_step _ _ _ _ _ _ _ _ Hr Hd Hn Hg Hh Ep Es) as (_ & Pa). auto.
Qed.

(** The first call with [Normal] reports the root. *)
Lemma normal_root (st : state) : reached st -> startable st -> (forall t, 3 / 4 <= t <= 3 / 2 -> g t < 0) ->
  exists rfuel st' t s s2 s3, solve rootR ewtR 600 rfuel st 1 0 Normal = Ret (st', t, Ok RootReturn) /\
    sec s /\ passed st s s2 /\ r_check3 rootR rfuel s2 = Ret (s3, RootFound).
Proof.
  intros Hr Su Hn. destruct (root_calls st 1 Normal Hr) as (N & st' & t & r & E). specialize (E N (Nat.le_refl _)).
  destruct (fresh_enters st Hr Su N Normal) as (NA & NE).
  destruct (solve_run _ _ _ _ _ _ _ _ _ _ _ E) as [A|(s0 & s & nl & m & Ent & Lo & F)]; [destruct (NA _ A)|].
  specialize (NE _ Ent). pose proof (enters_head _ _ _ _ _ _ _ _ Ent) as Hd.
  destruct (normal_loops _ _ _ _ _ Hr Hd NE Hn Lo) as (Hd' & [(-> & ->)|(Se & ->)]).
  - exfalso. destruct (last_pass _ _ _ _ _ _ _ _ _ Hr Hd (pr_nls _ NE) L0 (fun _ => pr_ewt _ NE) (pr_glo _ NE) ltac:(rewrite (pr_hh _ NE); lra) F) as (C & s2 & Pa & Ef).
    destruct (first_post _ _ _ _ _ _ _ _ NE Pa Ef) as (s3 & _ & Se & Ts & _ & E4).
    destruct (first_normal _ _ _ _ Se Ts E4) as (_ & _ & D). exact (C D).
  - pose proof (se_hh _ Se).
    destruct (last_pass _ _ _ _ _ _ _ _ _ Hr Hd' (se_nls _ Se) L1 ltac:(rewrite (se_nst _ Se); discriminate) (se_len _ Se) ltac:(lra) F) as (C & s2 & Pa & Ef).
    destruct (second_found _ _ _ _ _ _ _ _ Se Pa Hn Ef) as (-> & s3 & E3). exists N, st', t, s, s2, s3. auto.
Qed.

(** A call with [OneStep] stops after the first step. *)
Lemma onestep_first (st : state) : reached st -> startable st ->
  exists rfuel st' t, solve rootR ewtR 600 rfuel st 1 0 OneStep = Ret (st', t, Ok Success) /\
    reached st' /\ sec st' /\ tretlast st' = tn (nlp st').
Proof.
  intros Hr Su. destruct (root_calls st 1 OneStep Hr) as (N & st' & t & r & E). specialize (E N (Nat.le_refl _)).
  destruct (fresh_enters st Hr Su N OneStep) as (NA & NE).
  destruct (solve_run _ _ _ _ _ _ _ _ _ _ _ E) as [A|(s0 & s & nl & m & Ent & Lo & F)]; [destruct (NA _ A)|].
  specialize (NE _ Ent). pose proof (enters_head _ _ _ _ _ _ _ _ Ent) as Hd.
  destruct (head_loop _ _ _ _ _ _ _ _ _ _ Hd Lo) as (_ & Hnl).
  assert (nl = 0%nat) by (destruct (Nat.eq_dec nl 0) as [|Z]; [assumption|exfalso; discriminate (Hnl Z)]). subst nl.
  assert (s = s0) by (inversion Lo; [reflexivity|lia]). subst s.
  destruct (last_pass _ _ _ _ _ _ _ _ _ Hr Hd (pr_nls _ NE) L0 (fun _ => pr_ewt _ NE) (pr_glo _ NE) ltac:(rewrite (pr_hh _ NE); lra) F) as (C & s2 & Pa & Ef).
  destruct (first_post _ _ _ _ _ _ _ _ NE Pa Ef) as (s3 & _ & Se & Ts & _ & E4).
  destruct (first_onestep _ _ _ _ Se Ts E4) as (D1 & -> & ->). exists N, st', (1 / 2). split; [exact E|].
  split; [exact (reach_next _ _ _ _ _ _ _ _ _ _ _ _ _ _ Hr E)|]. rewrite D1. destruct Se. split; [constructor; assumption|].
  cbn. congruence.
Qed.

(** The next call starts stepping at once. *)
Lemma later_enters (st : state) rfuel : reached st -> sec st -> tretlast st = tn (nlp st) ->
  (forall a, ~ answers rootR ewtR rfuel st 1 0 OneStep a) /\
  forall s0, enters rootR ewtR rfuel st 1 0 OneStep s0 -> sec s0.
Proof.
  intros Hr Se Ht.
  assert (Q : forall x, solve_start rootR ewtR rfuel (task_set st 1 OneStep) 1 0 OneStep = Ret x -> exists s, x = inr (s, 0) /\ sec s).
  { intros x Ex. destruct (solve_start_cases _ _ _ _ _ _ _ _ Ex) as [(Hz & _)|[(Hz & _)|(Hz & l & E1 & S1 & Q)]].
    { exfalso. change (nst st = 0%nat) in Hz. rewrite (se_nst _ Se) in Hz. discriminate. }
    { exfalso. change (nst st = 0%nat) in Hz. rewrite (se_nst _ Se) in Hz. discriminate. }
    exists (on_lp (fun _ => l) (task_set st 1 OneStep)).
    assert (Se' : sec (on_lp (fun _ => l) (task_set st 1 OneStep))) by (destruct Se; constructor; try assumption; intros C; discriminate C).
    assert (Tr : tretlast (on_lp (fun _ => l) (task_set st 1 OneStep)) = tn (nlp (on_lp (fun _ => l) (task_set st 1 OneStep)))) by exact Ht.
    pose proof (shell_cfg _ _ _ (shell_trans _ _ _ _ (task_set_shell rootR st 1 OneStep) S1)) as Cf.
    destruct (reached_cfg st _ Hr Cf) as (_ & _ & V1 & _ & _ & _).
    pose proof (reach_tlink rootR ewtR Hl configQ configQ_ok [0] [1] st Hr) as Lk.
    assert (Ts : tstop (on_lp (fun _ => l) (task_set st 1 OneStep)) = None) by (destruct (tl_tstop _ _ _ _ Lk) as [K|K]; exact K).
    set (sx := on_lp (fun _ => l) (task_set st 1 OneStep)) in *. clearbody sx.
    split; [|exact Se'].
    unfold later_call in Q. rewrite V1 in Q. cbn [Nat.ltb Nat.leb] in Q. unfold r_check2 in Q. rewrite (se_irf _ Se') in Q. cbn [negb bind] in Q.
    rewrite Tr in Q. cbv zeta in Q.
    match type of Q with context [if ?b then let* _ := _ in _ else _] => change b with (Rltb (root_ttol sx) (Rabs (tn (nlp sx) - tn (nlp sx)))) in Q end.
    rewrite Rminus_diag_eq in Q by reflexivity. rewrite Rabs_R0 in Q.
    replace (Rltb (root_ttol sx) 0) with false in Q.
    2:{ symmetry. apply Rltb_false. unfold root_ttol. cbn. pose proof (Rabs_pos (tn (nlp sx))). pose proof (Rabs_pos (hh sx)). lra. }
    cbn [bind] in Q. unfold stop_test1 in Q. rewrite Ts, Tr in Q.
    match type of Q with context [if ?b then let* _ := _ in _ else _] => change b with (Rltb 0 ((tn (nlp sx) - tn (nlp sx)) * hh sx)) in Q end.
    replace (Rltb 0 _) with false in Q by (symmetry; apply Rltb_false; lra). cbn [bind] in Q. apply ret_inj in Q. congruence. }
  split.
  - intros a A. destruct (Q _ A) as (s & C & _). discriminate.
  - intros s0 A. destruct (Q _ A) as (s & C & Hs). injection C as ->. exact Hs.
Qed.

(** A second call with [OneStep]; no root in sight. *)
Lemma onestep_second (st : state) : reached st -> sec st -> tretlast st = tn (nlp st) -> (forall t, 0 < g t) ->
  exists rfuel st' t (s2 s3 : state), solve rootR ewtR 600 rfuel st 1 0 OneStep = Ret (st', t, Ok Success) /\
    searchable rootR s2 /\ watched s2 (vget (glo s2) 0) 0 /\ r_check3 rootR rfuel s2 = Ret (s3, RootContinue) /\
    3 / 4 <= tn (nlp s2) <= 3 / 2 /\ 3 / 4 <= right_end s2 <= 3 / 2 /\ tlo s2 = 1 / 2.
Proof.
  intros Hr Se Ht Hp. destruct (root_calls st 1 OneStep Hr) as (N & st' & t & r & E). specialize (E N (Nat.le_refl _)).
  exists N, st', t. rewrite E. destruct (later_enters st N Hr Se Ht) as (NA & NE).
  destruct (solve_run _ _ _ _ _ _ _ _ _ _ _ E) as [A|(s0 & s & nl & m & Ent & Lo & F)]; [destruct (NA _ A)|].
  specialize (NE _ Ent). pose proof (enters_head _ _ _ _ _ _ _ _ Ent) as Hd.
  destruct (head_loop _ _ _ _ _ _ _ _ _ _ Hd Lo) as (_ & Hnl).
  assert (nl = 0%nat) by (destruct (Nat.eq_dec nl 0) as [|Z]; [assumption|exfalso; discriminate (Hnl Z)]). subst nl.
  assert (s = s0) by (inversion Lo; [reflexivity|lia]). subst s. pose proof (se_hh _ NE).
  destruct (last_pass _ _ _ _ _ _ _ _ _ Hr Hd (se_nls _ NE) L0 ltac:(rewrite (se_nst _ NE); discriminate) (se_len _ NE) ltac:(lra) F) as (C & s2 & Pa & Ef).
  unfold post_step in Ef. rewrite (pa_nr _ _ _ Pa) in Ef. cbn [Nat.ltb Nat.leb] in Ef.
  apply bind_ret_inv in Ef. destruct Ef as (y & Ey & Ef). cbv beta in Ef.
  apply bind_ret_inv in Ey. destruct Ey as ((s3 & r3) & E3 & Ey). cbv beta iota in Ey.
  pose proof (pa_search _ _ _ Pa) as Hs.
  destruct r3.
  { exfalso. destruct (C55_root_bracketed _ _ _ _ Hs E3) as (tl & gl & _ & Hleft & Hright & Hflag & (i & Li & Hi) & _).
    assert (i = 0%nat) by (cbn in Li; lia). subst i.
    apply Hflag in Hi; [|exact Li]. destruct Hi as (_ & Hi).
    destruct (Hright 0%nat Li) as ((y1 & yp1 & _ & Hr1) & _). cbn in Hr1.
    assert (Gl : 0 < vget gl 0).
    { destruct Hleft as [(_ & ->)|Hleft].
      - destruct (second_end _ _ _ NE Pa) as (_ & _ & _ & G1 & _). rewrite G1. apply Hp.
      - destruct (Hleft 0%nat Li) as ((y2 & yp2 & _ & Hr2) & _). cbn in Hr2. rewrite Hr2. apply Hp. }
    destruct Hi as [Hi|Hi]; pose proof (Hp (tlo s3)); rewrite Hr1 in Hi; nra. }
  injection Ey as <-. pose proof (r_check3_kept _ _ _ _ _ E3) as K. unfold kept, outer in K.
  assert (Ts : tstop s3 = None) by (pose proof (pa_stop _ _ _ Pa); congruence).
  unfold stop_test2 in Ef. rewrite stop2_none in Ef by exact Ts. cbn [bind] in Ef. apply ret_inj in Ef. injection Ef as _ _ <-.
  exists s2, s3. split; [reflexivity|]. split; [exact Hs|].
  destruct (second_end _ _ _ NE Pa) as (G0 & G1 & _ & _ & G2 & G3). split; [|auto]. split; [apply G2; lra|left; rewrite (pa_dir _ _ _ Pa); reflexivity].
Qed.
End Calls.
End Life.

(** ** Hypotheses of the theorems in [PropRoots] and [PropReturn] *)
Local Instance NLS_E : NLSolver R (script R) := ScriptNLS [].
Notation state := (ida R (list nat) (script R)).

(** A root at 5/8, in the second step. *)
Definition cross (t : R) : R := 5 / 8 - t.
(** No root. *)
Definition above (t : R) : R := 1 + t * t.

Lemma cross_run : exists rfuel (st st' : state) t s s2 s3, reach (rootR cross) ewtR configQ [0] [1] st /\
  (exists st0, ida_new (rootR cross) [0] [1] = Ret st0 /\ st = configure configQ st0) /\
  solve (rootR cross) ewtR 600 rfuel st 1 0 Normal = Ret (st', t, Ok RootReturn) /\
  sec cross s /\ passed cross st s s2 /\ r_check3 (rootR cross) rfuel s2 = Ret (s3, RootFound).
Proof.
  destruct (fresh_exists cross) as (st0 & En).
  assert (Hr : reach (rootR cross) ewtR configQ [0] [1] (configure configQ st0)) by (constructor; exact En).
  destruct (normal_root cross) with (st := configure configQ st0) as (rfuel & st' & t & s & s2 & s3 & E & Q); unfold cross; try lra; [exact Hr|exact (fresh_startable _ _ En)|intros; lra|].
  exists rfuel, (configure configQ st0), st', t, s, s2, s3. split; [exact Hr|]. split; [eauto|]. auto.
Qed.

Example C55_root_bracketed_hypotheses_met : exists fuel (st st' : state),
  searchable (rootR cross) st /\ r_check3 (rootR cross) fuel st = Ret (st', RootFound).
Proof.
  destruct cross_run as (f & st & st' & t & s & s2 & s3 & _ & _ & _ & _ & Pa & E3). exists f, s2, s3. split; [exact (pa_search _ _ _ _ Pa)|exact E3].
Qed.

Example C55_true_root_hypotheses_met : exists fuel (st st' : state),
  searchable (rootR cross) st /\ r_check3 (rootR cross) fuel st = Ret (st', RootFound) /\
  (0 < num_roots (rootR cross))%nat /\ vget (get_root_info st') 0 <> 0 /\
  (exists s, get_solution (rootR cross) st (tlo st) = Ret (s, Ok tt)) /\
  (exists s, get_solution (rootR cross) st (right_end st) = Ret (s, Ok tt)) /\
  (forall t s, get_solution (rootR cross) st t = Ret (s, Ok tt) -> cross t = p_root (rootR cross) t (get_yy s) (get_yp s) 0) /\
  (forall t, (tlo st <= t <= right_end st \/ right_end st <= t <= tlo st) -> continuity_pt cross t) /\
  cross (tlo st) = vget (glo st) 0.
Proof.
  destruct cross_run as (f & st & st' & t & s & s2 & s3 & _ & _ & _ & Se & Pa & E3). exists f, s2, s3.
  pose proof (pa_search _ _ _ _ Pa) as Hs. destruct (second_end _ _ _ _ Se Pa) as (T1 & T2 & _ & T3 & _ & T4).
  assert (Hc : forall x, 1 / 2 <= x -> exists s, get_solution (rootR cross) s2 x = Ret (s, Ok tt)).
  { intros x Hx. apply accepted_check; [exact (proj1 Hs)|exact (proj1 (proj2 Hs))|].
    unfold time_check. cbv zeta. pose proof (pa_tn _ _ _ _ Pa) as U1. pose proof (pa_used _ _ _ _ Pa) as U2. pose proof (pa_hh _ _ _ _ Pa) as U3.
    pose proof (se_hh _ _ Se). rewrite (se_tn _ _ Se) in U1.
    match goal with |- (if ?b then _ else _) = _ => replace b with false; [reflexivity|] end.
    symmetry. apply Rltb_false. rewrite U1, U2. cbn. unfold Rsignum.
    pose proof (Rabs_pos (1 / 2 + hh s)). pose proof (Rabs_pos (hh s2)).
    destruct (Rlt_dec (hh s2) 0); [lra|].
    apply Rmult_le_pos; [|lra].
    match goal with |- 0 <= x - (_ - _ - ?z) => assert (0 <= z) end; [|lra].
    apply Rmult_le_pos; [|lra]. apply Rmult_le_pos; lra. }
  split; [exact Hs|]. split; [exact E3|]. split; [cbn; lia|].
  split. { destruct (C55_root_bracketed _ _ _ _ Hs E3) as (tl & gl & _ & _ & _ & _ & (i & Li & Hi) & _). assert (i = 0%nat) by (cbn in Li; lia). subst i. exact Hi. }
  split; [apply Hc; rewrite T4; lra|]. split; [apply Hc; lra|]. split; [reflexivity|].
  split; [|rewrite T3, T4; reflexivity].
  intros x _. unfold cross. reg.
Qed.

(** A search of the interval from 1/2 on takes finitely many passes. *)
Example C56_search_terminates_hypotheses_met : exists fuel (st : state), searchable (rootR cross) st /\
  tlo st < right_end st /\ Rabs (right_end st - tlo st) / tolerance st * 2 + 1 <= INR fuel.
Proof.
  destruct cross_run as (f & st & st' & t & s & s2 & s3 & _ & _ & _ & Se & Pa & _).
  destruct (second_end _ _ _ _ Se Pa) as (_ & T2 & _ & _ & _ & T4).
  destruct (INR_above (Rabs (right_end s2 - tlo s2) / tolerance s2 * 2 + 1)) as (N & HN).
  exists N, s2. split; [exact (pa_search _ _ _ _ Pa)|]. split; lra.
Qed.

Lemma above_run : exists rfuel rfuel' (st st1 st2 : state) t1 t2 (s2 s3 : state), reach (rootR above) ewtR configQ [0] [1] st /\
  (exists st0, ida_new (rootR above) [0] [1] = Ret st0 /\ st = configure configQ st0) /\
  solve (rootR above) ewtR 600 rfuel st 1 0 OneStep = Ret (st1, t1, Ok Success) /\
  reach (rootR above) ewtR configQ [0] [1] st1 /\ sec above st1 /\
  solve (rootR above) ewtR 600 rfuel' st1 1 0 OneStep = Ret (st2, t2, Ok Success) /\
  searchable (rootR above) s2 /\ watched s2 (vget (glo s2) 0) 0 /\ r_check3 (rootR above) rfuel' s2 = Ret (s3, RootContinue) /\
  3 / 4 <= tn (nlp s2) <= 3 / 2 /\ 3 / 4 <= right_end s2 <= 3 / 2 /\ tlo s2 = 1 / 2.
Proof.
  assert (Pos : forall t, 0 < above t) by (intros t; unfold above; pose proof (Rle_0_sqr t); unfold Rsqr in *; lra).
  assert (P0 : above 0 <> 0) by (apply Rgt_not_eq; apply Pos).
  destruct (fresh_exists above) as (st0 & En).
  assert (Hr : reach (rootR above) ewtR configQ [0] [1] (configure configQ st0)) by (constructor; exact En).
  destruct (onestep_first above P0 (configure configQ st0) Hr (fresh_startable _ _ En)) as (f1 & st1 & t1 & E1 & Hr1 & Se & Tr).
  destruct (onestep_second above (Pos _) st1 Hr1 Se Tr Pos) as (f2 & st2 & t2 & s2 & s3 & E2 & Q).
  exists f1, f2, (configure configQ st0), st1, st2, t1, t2, s2, s3.
  split; [exact Hr|]. split; [eauto|]. split; [exact E1|]. split; [exact Hr1|]. split; [exact Se|]. split; [exact E2|exact Q].
Qed.

Example C57_no_root_missed_hypotheses_met : exists fuel (st st' : state), searchable (rootR above) st /\
  r_check3 (rootR above) fuel st = Ret (st', RootContinue) /\ watched st (vget (glo st) 0) 0.
Proof.
  destruct above_run as (f & f' & st & st1 & st2 & t1 & t2 & s2 & s3 & _ & _ & _ & _ & _ & _ & Hs & Hw & E3 & _). exists f', s2, s3. auto.
Qed.

Example C57_call_keeps_sign_hypotheses_met : exists (st : state) fuel rfuel tout tret itask st' t r i,
  reach (rootR above) ewtR configQ [0] [1] st /\ steps (trace (lp (nlp st))) <> [] /\ irfnd st = false /\
  solve (rootR above) ewtR fuel rfuel st tout tret itask = Ret (st', t, r) /\ r <> Ok RootReturn /\
  (i < num_roots (rootR above))%nat /\ bget (gactive st) i = true /\ nget (g_rootdir configQ) i = 0%nat /\ vget (glo st) i <> 0.
Proof.
  destruct above_run as (f & f' & st & st1 & st2 & t1 & t2 & s2 & s3 & _ & _ & _ & Hr & Se & E & _).
  assert (P : above (1 / 2) <> 0) by (unfold above; lra).
  exists st1, 600%nat, f', 1, 0, OneStep, st2, t2, (Ok Success), 0%nat. split; [exact Hr|].
  split. { pose proof (tl_n _ _ _ _ (reach_tlink (rootR above) ewtR (script_lawful []) configQ configQ_ok [0] [1] st1 Hr)) as N.
    intros C. rewrite C, (se_nst _ _ Se) in N. discriminate. }
  split; [exact (se_irf _ _ Se)|]. split; [exact E|]. split; [discriminate|]. split; [cbn; lia|].
  split; [exact (se_act _ _ Se P)|]. split; [reflexivity|]. rewrite (se_glo _ _ Se). exact P.
Qed.

(** The state of the object after a root was reported. *)
Example C61_recheck_hypotheses_met : exists st : state, arrays st /\ (kused st <= 5)%nat /\ hh st <> 0 /\ irfnd st = true.
Proof.
  destruct cross_run as (f & st & st' & t & s & s2 & s3 & _ & _ & _ & Se & Pa & E3).
  destruct (pa_search _ _ _ _ Pa) as (A & K & Hh & Hg).
  destruct (r_check3_spec (rootR cross) f s2 A K (searchable_tol _ s2 (pa_search _ _ _ _ Pa)) Hg) as [(Z & _)|(s4 & q & Z & Sh & _)]; [congruence|].
  rewrite E3 in Z. injection Z as <- _. destruct (shell_arr _ _ _ Sh A) as (A' & K').
  pose proof (core_fields _ _ (sh_core _ _ _ Sh)) as C. assert (C1 : hh s3 = hh s2) by tauto.
  exists (set_irfnd true s3). split; [exact A'|]. split; [change (kused s3 <= 5)%nat; lia|]. split; [change (hh s3 <> 0); congruence|reflexivity].
Qed.

Example C55_reported_roots_hypotheses_met : exists (st : state) fuel rfuel tout tret itask st' t,
  config_ok (@configQ) /\ reach (rootR cross) ewtR configQ [0] [1] st /\
  solve (rootR cross) ewtR fuel rfuel st tout tret itask = Ret (st', t, Ok RootReturn).
Proof.
  destruct cross_run as (f & st & st' & t & s & s2 & s3 & Hr & _ & E & _).
  exists st, 600%nat, f, 1, 0, Normal, st', t. split; [exact configQ_ok|]. split; [exact Hr|exact E].
Qed.

Example C59_first_step_blind_hypotheses_met : exists (st0 : state) fuel rfuel tout tret itask st' t,
  ida_new (rootR cross) [0] [1] = Ret st0 /\
  (forall i, (i < num_roots (rootR cross))%nat -> p_root (rootR cross) (g_t0 configQ) [0] [1] i <> 0) /\
  solve (rootR cross) ewtR fuel rfuel (configure configQ st0) tout tret itask = Ret (st', t, Ok RootReturn).
Proof.
  destruct cross_run as (f & st & st' & t & s & s2 & s3 & _ & (st0 & En & ->) & E & _).
  exists st0, 600%nat, f, 1, 0, Normal, st', t. split; [exact En|]. split; [|exact E].
  intros i _. cbn. unfold cross. lra.
Qed.

Example C62_g_evals_counted_partial_hypotheses_met : exists (st0 st1 st : state) fuel rfuel tout tret itask t r,
  config_ok configQ /\ (0 < num_roots (rootR above))%nat /\ reach (rootR above) ewtR configQ [0] [1] st0 /\
  get_num_g_evals st0 = 0%nat /\ count is_root (trace (lp (nlp st0))) = 0%nat /\
  solve (rootR above) ewtR fuel rfuel st0 tout tret itask = Ret (st1, t, r) /\ steps (trace (lp (nlp st1))) <> [] /\
  later_calls (rootR above) ewtR st1 st.
Proof.
  destruct above_run as (f & f' & st & st1 & st2 & t1 & t2 & s2 & s3 & Hr0 & (st0 & En & ->) & E1 & Hr & Se & E & _).
  exists (configure configQ st0), st1, st2, 600%nat, f, 1, 0, OneStep, t1, (Ok Success).
  split; [exact configQ_ok|]. split; [cbn; lia|]. split; [exact Hr0|].
  assert (Q : get_num_g_evals (configure configQ st0) = 0%nat /\ count is_root (trace (lp (nlp (configure configQ st0)))) = 0%nat).
  { clear -En. unfold ida_new in En. destruct (_ && _); [|discriminate]. apply ret_inj in En. subst st0. split; reflexivity. }
  split; [exact (proj1 Q)|]. split; [exact (proj2 Q)|]. split; [exact E1|].
  split. { pose proof (tl_n _ _ _ _ (reach_tlink (rootR above) ewtR (script_lawful []) configQ configQ_ok [0] [1] st1 Hr)) as N.
    intros C. rewrite C, (se_nst _ _ Se) in N. discriminate. }
  eapply (lc_call (rootR above) ewtR st1 st1 st2 600 f' (CallSolve 1 0 OneStep)); [constructor|]. unfold api_call. rewrite E. reflexivity.
Qed.

(** A life with a root function, before a call that will search for roots. *)
Example C47_solve_returns_reals_hypotheses_met : exists st : state,
  nls_lawful (T := R) (NSt := script R) /\
  (forall (s : script R) (y : list R), exists s', nls_setup s y = Ret s') /\
  (forall (s : script R) (x : nlprob R (list nat)) y0 y w tol call, exists r,
     nls_solve _ (ida_nlproblem (rootR above)) (model_size (rootR above)) s x y0 y w tol call = Ret r) /\
  config_ok configQ /\ reach (rootR above) ewtR configQ [0] [1] st /\ (0 < g_mxstep configQ < 600)%nat /\
  steps (trace (lp (nlp st))) <> [].
Proof.
  destruct above_run as (f & f' & st & st1 & st2 & t1 & t2 & s2 & s3 & _ & _ & _ & Hr & Se & _).
  exists st1. split; [exact (script_lawful [])|]. split; [exact (script_setup_total [])|].
  split; [exact (fun s x => script_solve_total (rootR above) [] s x)|]. split; [exact configQ_ok|]. split; [exact Hr|]. split; [cbn; lia|].
  pose proof (tl_n _ _ _ _ (reach_tlink (rootR above) ewtR (script_lawful []) configQ configQ_ok [0] [1] st1 Hr)) as N.
  intros C. rewrite C, (se_nst _ _ Se) in N. discriminate.
Qed.

Print Assumptions C55_root_bracketed.
Print Assumptions C55_true_root.
Print Assumptions C55_reported_roots.
Print Assumptions C56_search_terminates.
Print Assumptions C57_no_root_missed.
Print Assumptions C57_call_keeps_sign.
Print Assumptions C59_first_step_blind.
Print Assumptions C60_direction_inverted.
Print Assumptions C61_recheck.
Print Assumptions C62_g_evals_counted_partial.
Print Assumptions C55_true_root_hypotheses_met.
Print Assumptions C57_call_keeps_sign_hypotheses_met.
