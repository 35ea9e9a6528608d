(** * PropFirst: the size of the first step (C18): src/impl_solve.rs, over the reals *)
Require Import List Arith Bool Lia Reals Lra Psatz.
Import ListNotations.
Require Import Verif.Base Verif.Scalar Verif.ScalarR Verif.Norms Verif.NormsR Verif.Newton Verif.NewtonSpec Verif.IdaState
  Verif.IdaNls Verif.IdaCore Verif.IdaRoots Verif.IdaSolve Verif.IdaIo Verif.BaseFacts Verif.NewtonFacts
  Verif.IdaFacts Verif.IdaLoops Verif.IdaStep Verif.IdaSpec Verif.IdaShell Verif.IdaReach Verif.IdaInv
  Verif.IdaCount Verif.IdaLife Verif.IdaTrace Verif.IdaStepR Verif.IdaCall Verif.IdaCallR Verif.PropStepR.
Open Scope R_scope.

(** ** The specification *)
(** Without a step size set by the user: a thousandth of the way to [tout], or
    half the inverse of the norm [yn] of y' when the former would move the solution
    by more than 2 in that norm. *)
Definition chosen_size (t tout yn : R) : R :=
  let d := Rabs (tout - t) / 1000 in
  (if Rlt_dec tout t then -1 else 1) * (if Rlt_dec 2 (d * yn) then 1 / (2 * yn) else d).
(** Reduced to the largest step size, [hi] being its inverse (0: none). *)
Definition first_size (hin hi t tout yn : R) : R :=
  let h := if Req_EM_T hin 0 then chosen_size t tout yn else hin in h / Rmax 1 (Rabs h * hi).
(** The output time is far enough from the initial time, and the step size set by
    the user, if any, leads there. *)
Definition far (t tout : R) : Prop := tout <> t /\ 2 * eps * (Rabs t + Rabs tout) <= Rabs (tout - t).
Definition towards (hin t tout : R) : Prop := hin = 0 \/ 0 < (tout - t) * hin.

Section First.
Context {LSt NSt : Type} `{LSolver R LSt} `{NLSolver R NSt}.
Variable prob : problem R.
Variable ewt_set : list R -> list R.
Notation n := (model_size prob).
Notation state := (ida R LSt NSt).
Notation tr st := (trace (lp (nlp st))).

Lemma reduce_size h hi : (if Rltb 1 (Rabs h * hi) then h / (Rabs h * hi) else h) = h / Rmax 1 (Rabs h * hi).
Proof.
  unfold Rmax. destruct (Rltb _ _) eqn:E, (Rle_dec _ _) as [L|L]; try reflexivity.
  - apply Rltb_true in E. lra.
  - apply Rltb_false in E. assert (Rabs h * hi = 1) as -> by lra. field.
  - field.
Qed.

Lemma first_step_size (st : state) tout x p1 : tstop st = None -> nth_error (phi st) 1 = Some p1 ->
  first_step st tout = Ret x ->
  let t := tn (nlp st) in
  (far t tout /\ towards (hin st) t tout /\ exists st', x = inr st' /\
     hh st' = first_size (hin st) (hmax_inv st) t tout (wrms_norm (idv st) p1 (ewt (nlp st)) (suppressalg st))) \/
  (~ far t tout /\ exists st', x = inl (st', ToutTooClose)) \/
  (far t tout /\ ~ towards (hin st) t tout /\ exists st', x = inl (st', StepNotTowardsTout)).
Proof.
  intros Ts Hp. unfold first_step. cbn [sabs ssub seqb szero sltb stwo seps smul sadd ScalarR].
  set (t := tn (nlp st)). set (td := Rabs (tout - t)). cbv zeta. unfold far. fold td.
  assert (Hz : td = 0 <-> tout = t).
  { unfold td. split; intros Q; [destruct (Req_dec (tout - t) 0) as [Z|Z]; [lra|exfalso; exact (Rabs_no_R0 _ Z Q)]|].
    rewrite Q. unfold Rminus. rewrite Rplus_opp_r. apply Rabs_R0. }
  destruct (Reqb td 0) eqn:E0.
  { apply Reqb_true in E0. intros E. right; left. split; [tauto|]. apply ret_inj in E. subst x. eexists. reflexivity. }
  apply Reqb_false in E0.
  destruct (Rltb td _) eqn:E1.
  { apply Rltb_true in E1. intros E. right; left. split; [intros (_ & Q); exact (Rlt_not_le _ _ E1 Q)|]. apply ret_inj in E. subst x. eexists. reflexivity. }
  apply Rltb_false in E1.
  assert (Hf : tout <> t /\ 2 * eps * (Rabs t + Rabs tout) <= td) by (split; [tauto|exact E1]). clear E1.
  assert (Htd : 0 < td) by (unfold td in *; pose proof (Rabs_pos (tout - t)); lra).
  destruct (sneqb _ _ && _) eqn:E2.
  { intros E. right; right. split; [exact Hf|]. split; [|apply ret_inj in E; subst x; eexists; reflexivity].
    apply andb_true_iff in E2. destruct E2 as (E2 & E3). unfold sneqb in E2. cbn [seqb szero hh set_hh nlp ScalarR] in E2, E3.
    destruct (Reqb (hin st) 0) eqn:E4; [discriminate|]. apply Reqb_false in E4. apply Rltb_true in E3. fold t in E3.
    intros [Q|Q]; [contradiction|lra]. }
  intros E. left. split; [exact Hf|]. apply bind_ret_inv in E as (s1 & E3 & E).
  assert (S1 : towards (hin st) t tout /\ s1 = set_hh (if Req_EM_T (hin st) 0 then
      chosen_size t tout (wrms_norm (idv st) p1 (ewt (nlp st)) (suppressalg st)) else hin st) st).
  { cbn [hh set_hh seqb szero ScalarR] in E2, E3. destruct (Reqb (hin st) 0) eqn:E4.
    - apply Reqb_true in E4. destruct (Req_EM_T (hin st) 0) as [_|Q]; [|contradiction]. split; [left; exact E4|].
      apply bind_ret_inv in E3 as (p1' & Ep & E3). apply ret_inj in E3.
      cbn [phi set_hh idv ewt nlp suppressalg hh tn sltb stwo sdiv shalf sneg spt001 smul ScalarR] in E3, Ep.
      assert (p1' = p1) as -> by (unfold aget in Ep; rewrite Hp in Ep; congruence). clear Ep.
      set (yn := wrms_norm (idv st) p1 (ewt (nlp st)) (suppressalg st)) in *.
      fold t in E3. unfold chosen_size. fold td.
      assert (Hc : (if Rltb (2 / (/ 1000 * td)) yn then / 2 / yn else / 1000 * td) =
        (if Rlt_dec 2 (td / 1000 * yn) then 1 / (2 * yn) else td / 1000)).
      { set (h := td / 1000). replace (/ 1000 * td) with h by (unfold h; field). assert (Hh : 0 < h) by (unfold h; lra).
        assert (Hy : 0 <= yn) by apply wrms_norm_nonneg.
        destruct (Rltb (2 / h) yn) eqn:E5, (Rlt_dec 2 (h * yn)) as [L|L]; try reflexivity.
        - field. intros Z. rewrite Z in L. lra.
        - apply Rltb_true in E5. exfalso. apply L. apply Rmult_lt_compat_r with (r := h) in E5; [|lra].
          replace (2 / h * h) with 2 in E5 by (field; lra). lra.
        - apply Rltb_false in E5. exfalso. apply Rmult_le_compat_r with (r := h) in E5; [|lra].
          replace (2 / h * h) with 2 in E5 by (field; lra). lra. }
      rewrite <- Hc. clear Hc Hp Ts. subst s1. set (c := Rltb (2 / _) yn). cbn [nlp set_hh hh] in *.
      assert (G : forall h d, h = d -> set_hh h st = set_hh d st) by (intros h d ->; reflexivity).
      unfold Rltb. destruct c; cbn [nlp set_hh hh]; fold t; destruct (Rlt_dec tout t); cbn [hh set_hh].
      + transitivity (set_hh (- (/ 2 / yn)) st); [reflexivity|apply G; ring].
      + transitivity (set_hh (/ 2 / yn) st); [reflexivity|apply G; ring].
      + transitivity (set_hh (- (/ 1000 * td)) st); [reflexivity|apply G; ring].
      + apply G; ring.
    - apply Reqb_false in E4. destruct (Req_EM_T (hin st) 0) as [Q|_]; [contradiction|]. apply ret_inj in E3. split; [|congruence].
      right. unfold sneqb in E2. cbn [seqb ScalarR] in E2. apply Reqb_false in E4. rewrite E4 in E2. cbn [negb andb] in E2.
      apply Rltb_false in E2. cbn [nlp set_hh] in E2. fold t in E2. apply Reqb_false in E4.
      assert ((tout - t) * hin st <> 0) by (apply Rmult_integral_contrapositive; split; [lra|auto]). lra. }
  destruct S1 as (S0 & ->). split; [exact S0|]. clear E2 E3.
  set (h1 := if Req_EM_T (hin st) 0 then _ else _) in *.
  cbn [hh set_hh hmax_inv nlp tstop sone sdiv sltb ScalarR] in E.
  assert (Es : (if Rltb 1 (Rabs h1 * hmax_inv st) then set_hh (h1 / (Rabs h1 * hmax_inv st)) (set_hh h1 st) else set_hh h1 st) =
    set_hh (h1 / Rmax 1 (Rabs h1 * hmax_inv st)) st).
  { rewrite <- reduce_size. destruct (Rltb _ _); reflexivity. }
  rewrite Es in E. cbn [tstop set_hh] in E. rewrite Ts in E. apply ret_inj in E. subst x. eexists. split; reflexivity.
Qed.

(** The same for the whole first-call block. *)
Lemma first_call_size (a : state) tout x p1 : tstop a = None -> nth_error (phi a) 1 = Some p1 ->
  first_call prob ewt_set a tout = Ret x ->
  let t := tn (nlp a) in
  let w := if setup_done a then ewt (nlp a) else ewt_set (row (phi a) 0) in
  (far t tout /\ towards (hin a) t tout /\ exists s, x = inr s /\
     hh s = first_size (hin a) (hmax_inv a) t tout (wrms_norm (idv a) p1 w (suppressalg a))) \/
  (~ far t tout /\ exists s, x = inl (s, ToutTooClose)) \/
  (far t tout /\ ~ towards (hin a) t tout /\ exists s, x = inl (s, StepNotTowardsTout)).
Proof.
  intros Ts Hp E. cbv zeta. unfold first_call in E. apply bind_ret_inv in E as (s0 & E0 & E). apply bind_ret_inv in E as (r & E1 & E).
  assert (K0 : hmax_inv s0 = hmax_inv a /\ tn (nlp s0) = tn (nlp a) /\ tstop s0 = tstop a /\ hin s0 = hin a /\
     phi s0 = phi a /\ idv s0 = idv a /\ suppressalg s0 = suppressalg a /\
     ewt (nlp s0) = (if setup_done a then ewt (nlp a) else ewt_set (row (phi a) 0))).
  { destruct (setup_done a); [apply ret_inj in E0; subst; auto 10|].
    apply bind_ret_inv in E0 as (s2 & E2 & E0). apply ret_inj in E0. subst s0. clear -E2.
    unfold initial_setup in E2. cbv zeta in E2. minv; cbn; auto 10.
    repeat (split; [reflexivity|]). unfold aget in *. unfold row.
    destruct (phi a); cbn in *; congruence. }
  destruct K0 as (K1 & K2 & K3 & K4 & K5 & K6 & K7 & K8).
  assert (Hp0 : nth_error (phi s0) 1 = Some p1) by (rewrite K5; exact Hp). rewrite <- K3 in Ts.
  pose proof (first_step_size _ _ _ _ Ts Hp0 E1) as FR. cbv zeta in FR.
  rewrite K1, K2, K4, K6, K7, K8 in FR.
  destruct FR as [(F1 & F2 & s1 & -> & F3)|[(F1 & s1 & ->)|(F1 & F2 & s1 & ->)]].
  - left. split; [exact F1|]. split; [exact F2|].
    apply bind_ret_inv in E as (s2 & E2 & E). apply bind_ret_inv in E as (q & E3 & E).
    apply bind_ret_inv in E as (ph & E4 & E). apply ret_inj in E. subst x. eexists. split; [reflexivity|].
    cbn [hh set_eps_newt set_phi on_nlp set_nlp]. rewrite <- F3.
    destruct (0 <? _)%nat; [|apply ret_inj in E2; subst s2; reflexivity].
    apply r_check1_frame in E2. destruct E2 as ((E2 & _) & _). apply core_fields in E2.
    transitivity (hh (set_kused 0 (set_kk 0 (set_h0u (hh s1) s1)))); [tauto|reflexivity].
  - right; left. apply ret_inj in E. subst x. split; [exact F1|eexists; reflexivity].
  - right; right. apply ret_inj in E. subst x. split; [exact F1|split; [exact F2|eexists; reflexivity]].
Qed.

Hypothesis Hl : @nls_lawful R NSt _.

(** The first attempt of the first call on a new object, without a stop time: it
    has exactly this size; the call is refused when [tout] is too close or the step
    size set by the user leads away from it. *)
Theorem C18_first_step_size c yy0 yp0 (st0 st' : state) fuel rfuel tout tret itask t r :
  config_ok c -> ida_new prob yy0 yp0 = Ret st0 -> g_tstop c = None ->
  solve prob ewt_set fuel rfuel (configure c st0) tout tret itask = Ret (st', t, r) ->
  (forall new past t1 h k, tr st' = new ++ CTry t1 h k :: past -> existsb is_try past = false ->
     far (g_t0 c) tout /\ towards (g_hin c) (g_t0 c) tout /\
     h = first_size (g_hin c) (g_hmax_inv c) (g_t0 c) tout (wrms_norm (g_idv c) yp0 (ewt_set yy0) (g_suppressalg c))) /\
  (~ far (g_t0 c) tout -> t = tret /\ r = Err (EIda (IllegalIn ToutTooClose))) /\
  (far (g_t0 c) tout -> ~ towards (g_hin c) (g_t0 c) tout -> t = tret /\ r = Err (EIda (IllegalIn StepNotTowardsTout))).
Proof.
  intros Hc En Ets E. pose proof (new_fields prob yy0 yp0 st0 En) as Nf.
  assert (Etr0 : tr (configure c st0) = []) by (change (tr st0 = []); tauto).
  assert (Ho : ordok (configure c st0)) by (apply (new_ord prob c yy0 yp0); assumption).
  assert (Hz : nst (configure c st0) = 0%nat) by (change (nst st0 = 0%nat); tauto).
  assert (Sd : setup_done st0 = false) by (clear -En; unfold ida_new in En; minv; reflexivity).
  set (a := task_set (configure c st0) tout itask) in *.
  assert (A : tn (nlp a) = g_t0 c /\ hmax_inv a = g_hmax_inv c /\ hin a = g_hin c /\ phi a = phi st0 /\ idv a = g_idv c /\
    suppressalg a = g_suppressalg c /\ tstop a = g_tstop c /\ setup_done a = setup_done st0).
  { unfold a. destruct itask; repeat split. }
  destruct A as (A1 & A2 & A3 & A4 & A5 & A6 & A7 & A8).
  assert (A9 : nst a = 0%nat) by (rewrite <- Hz; exact (shell_nst _ _ _ (task_set_shell prob (configure c st0) tout itask))).
  assert (Ph : phi st0 = yy0 :: yp0 :: repeat (vzero n) 4) by tauto.
  assert (F : forall x, first_call prob ewt_set a tout = Ret x -> let h := first_size (g_hin c) (g_hmax_inv c) (g_t0 c) tout
      (wrms_norm (g_idv c) yp0 (ewt_set yy0) (g_suppressalg c)) in
    (far (g_t0 c) tout /\ towards (g_hin c) (g_t0 c) tout /\ exists s, x = inr s /\ hh s = h) \/
    (~ far (g_t0 c) tout /\ exists s, x = inl (s, ToutTooClose)) \/
    (far (g_t0 c) tout /\ ~ towards (g_hin c) (g_t0 c) tout /\ exists s, x = inl (s, StepNotTowardsTout))).
  { intros x Ex. assert (Hp : nth_error (phi a) 1 = Some yp0) by (rewrite A4, Ph; reflexivity).
    pose proof (first_call_size a tout x yp0 (eq_trans A7 Ets) Hp Ex) as Q. cbv zeta in Q.
    rewrite A1, A2, A3, A4, A5, A6, A8, Sd, Ph in Q. exact Q. }
  split; [|split].
  - intros new past t1 h k Etr Np.
    destruct (first_attempt prob ewt_set Hl fuel rfuel (configure c st0) tout tret itask st' t r new past t1 h k Ho Hz E)
      as (s & Ef & -> & -> & -> & Eh); [rewrite Etr0, app_nil_r; exact Etr|exact Np|rewrite Etr0; reflexivity|].
    destruct (F _ Ef) as [(F1 & F2 & s' & Q & F3)|[(_ & s' & Q)|(_ & _ & s' & Q)]]; [|discriminate..].
    injection Q as <-. auto.
  - intros Nf2. assert (Q : answers prob ewt_set rfuel (configure c st0) tout tret itask (st', t, r)).
    { destruct (solve_run _ _ _ _ _ _ _ _ _ _ _ E) as [Q|(s0 & s & nl & m & En0 & _)]; [exact Q|exfalso]. unfold enters in En0. fold a in En0.
      destruct (solve_start_cases _ _ _ _ _ _ _ _ En0) as [(_ & s1 & m1 & _ & Q)|[(_ & s1 & l & E1 & _)|(Q & _)]]; [discriminate| |congruence].
      destruct (F _ E1) as [(F1 & _)|[(_ & s' & Q)|(F1 & _)]]; [contradiction|discriminate|contradiction]. }
    unfold answers in Q. fold a in Q.
    destruct (solve_start_cases _ _ _ _ _ _ _ _ Q) as [(_ & s1 & m1 & E1 & Q1)|[(_ & s1 & l & E1 & _ & _ & _ & Q1)|(Q1 & _)]]; [|discriminate|congruence].
    injection Q1 as -> -> ->. destruct (F _ E1) as [(F1 & _)|[(_ & s' & Q1)|(F1 & _)]]; [contradiction| |contradiction].
    injection Q1 as <- ->. auto.
  - intros Hf Nt. assert (Q : answers prob ewt_set rfuel (configure c st0) tout tret itask (st', t, r)).
    { destruct (solve_run _ _ _ _ _ _ _ _ _ _ _ E) as [Q|(s0 & s & nl & m & En0 & _)]; [exact Q|exfalso]. unfold enters in En0. fold a in En0.
      destruct (solve_start_cases _ _ _ _ _ _ _ _ En0) as [(_ & s1 & m1 & _ & Q)|[(_ & s1 & l & E1 & _)|(Q & _)]]; [discriminate| |congruence].
      destruct (F _ E1) as [(_ & F1 & _)|[(F1 & _)|(_ & _ & s' & Q)]]; [contradiction|contradiction|discriminate]. }
    unfold answers in Q. fold a in Q.
    destruct (solve_start_cases _ _ _ _ _ _ _ _ Q) as [(_ & s1 & m1 & E1 & Q1)|[(_ & s1 & l & E1 & _ & _ & _ & Q1)|(Q1 & _)]]; [|discriminate|congruence].
    injection Q1 as -> -> ->. destruct (F _ E1) as [(_ & F1 & _)|[(F1 & _)|(_ & _ & s' & Q1)]]; [contradiction|contradiction|].
    injection Q1 as <- ->. auto.
Qed.
End First.

Print Assumptions C18_first_step_size.

(** From 0 to 1 with y' of norm 1: a thousandth; with y' of norm 10000: 1/20000. *)
Example chosen_size_1 : chosen_size 0 1 1 = 1 / 1000.
Proof.
  unfold chosen_size. destruct (Rlt_dec 1 0); [lra|]. replace (1 - 0) with 1 by ring. rewrite Rabs_R1.
  destruct (Rlt_dec 2 _); lra.
Qed.
Example chosen_size_2 : chosen_size 0 (-1) 10000 = - (1 / 20000).
Proof.
  unfold chosen_size. destruct (Rlt_dec (-1) 0); [|lra]. replace (-1 - 0) with (-1) by ring. replace (Rabs (-1)) with 1 by (rewrite Rabs_left; lra).
  destruct (Rlt_dec 2 _); lra.
Qed.
