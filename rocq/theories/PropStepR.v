(** * PropStepR: step sizes, times and stop time over the reals: C18, C34, C36,
      C37, C45, C48, C49 (src/lib.rs, src/impl_complete_step.rs, src/impl_solve.rs,
      src/impl_stop_test.rs) *)
Require Import List Arith Bool Lia Reals Lra Psatz.
Import ListNotations.
Require Import Verif.Base Verif.Scalar Verif.ScalarR Verif.Norms Verif.Newton Verif.NewtonSpec Verif.IdaState
  Verif.IdaNls Verif.IdaCore Verif.IdaRoots Verif.IdaSolve Verif.IdaIo Verif.BaseFacts Verif.NewtonFacts
  Verif.IdaFacts Verif.IdaLoops Verif.IdaStep Verif.IdaSpec Verif.IdaShell Verif.IdaReach Verif.IdaInv
  Verif.IdaCount Verif.IdaLife Verif.IdaTrace Verif.IdaStepR Verif.IdaInterp Verif.IdaCall Verif.IdaCallR
  Verif.PropSafe Verif.PropSolve Verif.Script Verif.ExampleR.
Open Scope R_scope.

Section OverR.
Context {LSt NSt : Type} `{LSolver R LSt} `{NLSolver R NSt}.
Variable prob : problem R.
Variable ewt_set : list R -> list R.
Hypothesis Hl : @nls_lawful R NSt _.
Notation n := (model_size prob).
Notation state := (ida R LSt NSt).
Notation tr st := (trace (lp (nlp st))).

Lemma reach_ordJ c yy0 yp0 (st : state) : config_ok c -> reach prob ewt_set c yy0 yp0 st ->
  ordok st /\ J prob c None st.
Proof.
  intros Hc Hr. split; [exact (reach_ord prob ewt_set Hl c yy0 yp0 st Hc Hr)|].
  exact (reach_J prob ewt_set Hl c Hc yy0 yp0 st Hr).
Qed.

(** ** C34 *)
(** [e] is an attempt made after a failed error test of the same step. *)
Definition retry_ok (e : event R) (past : list (event R)) : Prop :=
  match e with
  | CTry t h k => (1 <= fails_now past)%nat ->
      exists h0 k0 q, last_try past = Some (t, h0, k0) /\ h = h0 * q /\ / 4 <= q <= 9 / 10 /\
        (k <= k0)%nat /\ ((3 <= fails_now past)%nat -> k = 1%nat)
  | _ => True
  end.

Theorem C34_retries_shrink c yy0 yp0 (st : state) :
  config_ok c -> reach prob ewt_set c yy0 yp0 st -> every retry_ok (tr st).
Proof.
  intros Hc Hr. destruct (reach_ordJ _ _ _ _ Hc Hr) as (_ & L & _).
  eapply every_impl; [|exact (tl_every _ _ _ _ L)]. intros e past He. destruct e; cbn in He |- *; auto.
  intros Hf. destruct (lt_retry _ _ _ _ _ He Hf) as (h0 & k0 & q & A1 & A2 & A3 & _ & A4 & A5).
  exists h0, k0, q. split; [exact A1|]. split; [exact A2|]. split; [apply (factor_R (fails_now past)); auto|]. auto.
Qed.

(** ** C36 *)
(** [e] is the first attempt after an accepted step of size [hl]. *)
Definition next_ok (c : @config R) (e : event R) (past : list (event R)) : Prop :=
  match e with
  | CTry t h k => forall a rest, steps past = a :: rest -> tries_since past = 0%nat ->
      let hl := a_h a in
      exists h0,
        (h0 = hl \/
         (Rabs (2 * hl) * g_hmax_inv c <= 1 /\ h0 = 2 * hl) \/
         (1 < Rabs (2 * hl) * g_hmax_inv c /\ Rabs h0 * g_hmax_inv c = 1 /\ 0 < h0 * hl) \/
         (exists q, 1 / 2 <= q <= 9 / 10 /\ h0 = q * hl)) /\
        (h = h0 \/ exists ts q, g_tstop c = Some ts /\ h = (ts - t) * (1 - 4 * eps) /\ h = q * h0 /\ 0 < q <= 1)
  | _ => True
  end.

Theorem C36_next_step_size c yy0 yp0 (st : state) :
  config_ok c -> reach prob ewt_set c yy0 yp0 st -> every (next_ok c) (tr st).
Proof.
  intros Hc Hr. destruct (reach_ordJ _ _ _ _ Hc Hr) as (_ & _ & Rl).
  eapply every_impl; [|exact (rl_every _ _ _ Rl)]. intros e past He. destruct e; cbn in He |- *; auto.
  intros a rest Ea Et. destruct He as (_ & _ & _ & He). exact (He a rest Ea Et).
Qed.

(** ** C37 *)
Definition hmax_ok (c : @config R) (e : event R) (past : list (event R)) : Prop :=
  match e with CTry _ h _ => Rabs h * g_hmax_inv c <= 1 | _ => True end.

Theorem C37_max_step_respected c yy0 yp0 (st : state) :
  config_ok c -> reach prob ewt_set c yy0 yp0 st ->
  every (hmax_ok c) (tr st) /\ (steps (tr st) <> [] -> Rabs (get_current_setp st) * g_hmax_inv c <= 1).
Proof.
  intros Hc Hr. destruct (reach_ordJ _ _ _ _ Hc Hr) as (_ & L & Rl). split.
  - eapply every_impl; [|exact (rl_every _ _ _ Rl)]. intros e past He. destruct e; cbn in He |- *; tauto.
  - intros Hs. apply (rl_h _ _ _ Rl). left. rewrite <- (tl_n _ _ _ _ L). intros Z.
    apply length_zero_iff_nil in Z. auto.
Qed.

(** ** C48 *)
(** The time reached by the accepted steps [l] from [t0]. *)
Definition reached (t0 : R) (l : list (astep R)) : R := match l with a :: _ => a_t a | [] => t0 end.

Lemma steps_times (c : @config R) (trc : list (event R)) : every (rlegal c) trc ->
  forall l1 a l2, steps trc = l1 ++ a :: l2 -> a_t a = reached (g_t0 c) l2 + a_h a /\ a_h a <> 0.
Proof.
  induction trc as [|e past IH]; intros Hev l1 a l2 E; [destruct l1; discriminate|].
  assert (Hp : every (rlegal c) past) by (apply (every_past _ [e]); exact Hev).
  pose proof (Hev [] e past eq_refl) as He.
  destruct e as [| | | | | | |t y]; try exact (IH Hp _ _ _ E). cbn in E, He.
  destruct He as (h & k & El & Et). rewrite El in E.
  destruct l1 as [|b l1]; cbn in E; [|injection E as _ E; exact (IH Hp _ _ _ E)].
  injection E as <- <-. cbn. split; [exact Et|].
  (* the attempt itself has a non-zero size *)
  clear -El Hp. revert El. generalize (now c past). intros t0. induction past as [|e past IH]; [discriminate|].
  assert (Hp' : every (rlegal c) past) by (apply (every_past _ [e]); exact Hp).
  pose proof (Hp [] e past eq_refl) as He.
  destruct e; try exact (IH Hp'). cbn in *. intros E. injection E as -> -> ->. tauto.
Qed.

Theorem C48_time_moves_forward c yy0 yp0 (st : state) :
  config_ok c -> reach prob ewt_set c yy0 yp0 st ->
  get_current_time st = reached (g_t0 c) (steps (tr st)) /\
  (forall l1 a l2, steps (tr st) = l1 ++ a :: l2 -> a_t a = reached (g_t0 c) l2 + a_h a /\ a_h a <> 0) /\
  (forall a b, In a (steps (tr st)) -> In b (steps (tr st)) -> 0 < a_h a * a_h b) /\
  every (fun e past => match e with CTry t _ _ => t = reached (g_t0 c) (steps past) | _ => True end) (tr st).
Proof.
  intros Hc Hr. destruct (reach_ordJ _ _ _ _ Hc Hr) as (_ & L & Rl).
  split; [exact (tl_tn _ _ _ _ L)|]. split; [exact (steps_times _ _ (rl_every _ _ _ Rl))|]. split.
  - intros a b Ha Hb. pose proof (rl_sign _ _ _ Rl) as Hs. rewrite Forall_forall in Hs.
    pose proof (Hs a Ha). pose proof (Hs b Hb).
    destruct (same_sign_cases (hh st) (a_h a)) as [(?&?)|(?&?)], (same_sign_cases (hh st) (a_h b)) as [(?&?)|(?&?)];
      try assumption; try lra; nra.
  - eapply every_impl; [|exact (tl_every _ _ _ _ L)]. intros e past He. destruct e; cbn in He |- *; auto.
    exact (lt_t _ _ _ _ _ He).
Qed.

(** ** C45 *)
(** For every state: asking again for the time just returned leaves the outputs
    alone; otherwise the time has been reached and the outputs are what
    [get_solution] computes there. *)
Theorem C45_outputs_at_tout c yy0 yp0 (st : state) fuel rfuel tout tret st' t :
  config_ok c -> reach prob ewt_set c yy0 yp0 st ->
  solve prob ewt_set fuel rfuel st tout tret Normal = Ret (st', t, Ok Success) ->
  t = tout /\ tretlast st' = tout /\
  ((tout = tretlast st /\ steps (tr st') = steps (tr st) /\ steps (tr st) <> [] /\
      (num_roots prob = 0%nat -> get_yy st' = get_yy st /\ get_yp st' = get_yp st)) \/
   (0 <= (get_current_time st' - tout) * get_current_setp st' /\
      exists s, get_solution prob st' tout = Ret (s, Ok tt) /\ get_yy s = get_yy st' /\ get_yp s = get_yp st')).
Proof.
  intros Hc Hr E. destruct (reach_ordJ _ _ _ _ Hc Hr) as (O & Ji).
  destruct (C45_path prob ewt_set Hl _ _ _ _ _ _ _ _ _ _ Hc Hr E) as (A & B & D).
  split; [exact A|]. split; [exact B|]. destruct D as [(D1 & D2)|(D1 & s & r & D2 & D3 & D4 & D5)].
  - left. split; [|exact D2]. apply Reqb_true. exact D1.
  - right. assert (D6 : 0 <= (tn (nlp st') - tout) * hh st') by (apply Rleb_true; exact D1).
    split; [exact D6|]. exists s. split; [|auto].
    destruct D5 as [->|(h & s1 & s2 & nl & u & Hd & Ep & Es & Ec)]; [exact D2|].
    pose proof (head_step _ _ _ _ _ _ _ _ _ _ _ _ Hd Ep Es) as P2.
    pose proof (pre_step_shell _ _ _ _ _ _ Ep) as (S1 & _).
    destruct (pieces_J prob ewt_set Hl c _ _ O Ji (pieces_shell _ _ _ _ _ (hd_pieces _ _ _ _ _ _ Hd) S1)) as (O1 & J1).
    pose proof (step_time_R prob ewt_set Hl c rfuel s1 s2 u O1 J1 (shell_limited _ _ _ S1 (hd_lim _ _ _ _ _ _ Hd))
      (shell_fresh _ _ _ _ S1 (hd_fresh _ _ _ _ _ _ Hd)) Es) as (T1 & T2 & T3 & T4).
    pose proof (head_tout prob ewt_set Hl c _ _ _ O Ji Hd) as T5.
    pose proof (core_fields _ _ (sh_core _ _ _ S1)) as C1. pose proof (core_fields _ _ Ec) as C2.
    assert (Q1 : hh s1 = hh h) by tauto. assert (Q2 : tn (nlp s1) = tn (nlp h)) by tauto.
    assert (Q3 : hh st' = hh s2) by tauto. assert (Q4 : tn (nlp st') = tn (nlp s2)) by tauto.
    assert (Q5 : hused st' = hused s2) by tauto.
    assert (Hk : time_check st' tout = None).
    { apply time_ok; [rewrite Q3, Q5; exact T3|]. rewrite Q4, Q5, Q3.
      replace (tn (nlp s2) - hused s2) with (tn (nlp h)) by lra.
      assert (0 <= 100 * eps * (Rabs (tn (nlp s2)) + Rabs (hh s2)) * Rabs (hh s2)).
      { pose proof eps_pos. pose proof (Rabs_pos (tn (nlp s2))). pose proof (Rabs_pos (hh s2)).
        apply Rmult_le_pos; [|lra]. apply Rmult_le_pos; lra. }
      assert (0 < (tout - tn (nlp h)) * hh s2); [|lra].
      rewrite Q1 in T2.
      destruct (same_sign_cases _ _ T2) as [(?&?)|(?&?)], (same_sign_cases _ _ T3) as [(?&?)|(?&?)]; try lra; nra. }
    unfold get_solution in D2 |- *. rewrite Hk in D2 |- *. cbv zeta in D2.
    assert (r = Ok tt); [|subst; exact D2].
    clear -D2. minv. reflexivity.
Qed.

(** ** C49 *)
(** While the stop time is set no accepted step ends beyond it, and neither does
    the internal time. *)
Theorem C49_never_past_tstop c yy0 yp0 (st : state) ts :
  config_ok c -> reach prob ewt_set c yy0 yp0 st -> tstop st = Some ts ->
  g_tstop c = Some ts /\ Forall (fun a => (a_t a - ts) * a_h a <= 0) (steps (tr st)).
Proof.
  intros Hc Hr Ets. destruct (reach_ordJ _ _ _ _ Hc Hr) as (_ & L & Rl). split.
  - destruct (tl_tstop _ _ _ _ L); congruence.
  - pose proof (rl_sign _ _ _ Rl) as Hs. pose proof (rl_passed _ _ _ Rl ts Ets) as Hp.
    rewrite Forall_forall in Hs, Hp |- *. intros a Ha. specialize (Hs a Ha). specialize (Hp a Ha). cbn in Hs, Hp.
    destruct (same_sign_cases _ _ Hs) as [(?&?)|(?&?)]; nra.
Qed.

Theorem C49_tstop_return c yy0 yp0 (st : state) fuel rfuel tout tret itask st' t :
  config_ok c -> reach prob ewt_set c yy0 yp0 st ->
  solve prob ewt_set fuel rfuel st tout tret itask = Ret (st', t, Ok TStop) ->
  g_tstop c = Some t /\ tretlast st' = t /\
  Rabs (get_current_time st' - t) <= 100 * eps * (Rabs (get_current_time st') + Rabs (get_current_setp st')) /\
  exists s, get_solution prob st' t = Ret (s, Ok tt) /\ get_yy s = get_yy st' /\ get_yp s = get_yp st'.
Proof.
  intros Hc Hr E. destruct (reach_ordJ _ _ _ _ Hc Hr) as (O & Ji).
  assert (Hr' : reach prob ewt_set c yy0 yp0 st') by (eapply reach_next; eassumption).
  destruct (reach_ordJ _ _ _ _ Hc Hr') as (O' & J').
  assert (K : exists x ts s r, pieces prob ewt_set st x /\ nst x <> 0%nat /\ tstop x = Some ts /\ t = ts /\ at_tstop x ts = true /\
     get_solution prob x ts = Ret (s, r) /\ core st' = core s /\ yy (nlp st') = yy (nlp s) /\ yp (nlp st') = yp (nlp s) /\
     tretlast st' = ts).
  { destruct (solve_run _ _ _ _ _ _ _ _ _ _ _ E) as [A|(s0 & s & nl & m & En & Lo & F)].
    - unfold answers in A. pose proof (task_set_shell prob st tout itask) as S0.
      destruct (solve_start_cases _ _ _ _ _ _ _ _ A) as [(Hz & s & m & X & Q)|[(Hz & s & l & E1 & E2 & E3 & E4 & Q)|(Hz & l & E1 & S1 & Q)]]; try discriminate.
      destruct (later_call_cases _ _ _ _ _ _ _ Q) as [(_ & y & e & X & Y)|[(_ & y & _ & _ & X)|[(_ & X0 & _ & _ & y & y' & r' & _ & _ & X)|(y & y' & t' & r' & Y1 & Y2 & Y3 & Y4 & X)]]]; try discriminate.
      assert (Hr2 : r' = Ok TStop) by (destruct r' as [[]|]; cbn in X; congruence). subst r'. injection X as <- <-.
      destruct (stop_test1_tstop _ _ _ _ _ _ _ Y4) as (ts & s & P1 & P2 & P3 & P4 & P5 & P6).
      exists y, ts, s, (Ok tt).
      assert (Sy : shell prob st y) by (eapply shell_trans; [exact S0|]; eapply shell_trans; eassumption).
      split; [apply piece1, p_shell; exact Sy|].
      split; [rewrite (shell_nst _ _ _ Sy), <- (shell_nst _ _ _ S0); exact Hz|].
      split; [exact P1|]. split; [exact P2|]. split; [exact P4|]. split; [exact P5|].
      rewrite P6. destruct itask; auto.
    - pose proof (run_head _ _ _ _ _ _ _ _ _ _ En Lo) as Hd. remember (Ok TStop) as r eqn:Er0.
      destruct F as [st' t r Ep|s1 s2 e st' t r Ep Es Ef|s1 s2 u st' t r Ep Es Ef Hr2].
      + apply pre_step_shell in Ep. destruct Ep as (_ & _ & [(Er & _)|(_ & [Er|Er])]); congruence.
      + apply step_failed_shell in Ef. destruct Ef as (_ & Er & _). congruence.
      + pose proof (head_step _ _ _ _ _ _ _ _ _ _ _ _ Hd Ep Es) as P2.
        pose proof (step_ok_nst _ _ _ _ _ Es) as Hz2.
        apply post_step_cases in Ef. destruct Ef as [(_ & x & _ & _ & _ & _ & X)|(x & X1 & X2 & X3 & X4)]; [congruence|].
        subst r. destruct (stop_test2_tstop _ _ _ _ _ _ _ X4) as (ts & g & r & Q1 & Q2 & Q3 & Q4 & Q5).
        exists x, ts, g, r. split; [exact (pieces_shell _ _ _ _ _ P2 X1)|].
        split; [rewrite (shell_nst _ _ _ X1); exact Hz2|].
        split; [exact Q1|]. split; [exact Q2|]. split; [exact Q3|]. split; [exact Q4|]. rewrite Q5. auto. }
  destruct K as (x & ts & s & r & P & Hz & K1 & -> & K2 & K3 & K4 & K5 & K6 & K7).
  destruct (pieces_J prob ewt_set Hl c _ _ O Ji P) as (Ox & Jx).
  assert (Cx : core st' = core x).
  { rewrite K4. exact (sh_core _ _ _ (get_solution_shell _ _ _ _ _ K3)). }
  destruct (core_hh _ _ Cx) as (Q1 & Q2).
  unfold at_tstop in K2. cbv zeta in K2. cbn in K2. apply Rleb_true in K2. change (/ 4503599627370496) with eps in K2.
  split.
  { destruct Jx as (Lx & _). destruct (tl_tstop _ _ _ _ Lx); congruence. }
  split; [exact K7|]. unfold get_current_time, get_current_setp. rewrite Q1, Q2. split; [exact K2|].
  assert (Hk : time_check x ts = None).
  { destruct (steps_ne prob c _ _ Jx Hz) as (a & rest & Es). destruct Jx as (Lx & Rx).
    pose proof (rl_sign _ _ _ Rx) as Hs. rewrite Es in Hs. apply Forall_inv in Hs.
    destruct (tl_used _ _ _ _ Lx a rest Es) as (_ & Eh). rewrite <- Eh in Hs.
    apply time_ok; [exact Hs|].
    set (F := 100 * eps * (Rabs (tn (nlp x)) + Rabs (hh x))) in *.
    assert (- (F * Rabs (hh x)) <= (ts - tn (nlp x)) * hh x).
    { assert (Rabs ((tn (nlp x) - ts) * hh x) <= F * Rabs (hh x)).
      { rewrite Rabs_mult. apply Rmult_le_compat_r; [apply Rabs_pos|exact K2]. }
      pose proof (Rle_abs ((tn (nlp x) - ts) * hh x)). lra. }
    replace ((ts - (tn (nlp x) - hused x)) * hh x) with ((ts - tn (nlp x)) * hh x + hh x * hused x) by ring. lra. }
  destruct Ox as (Ax & Mx & _ & Kx & _). destruct O' as (A' & _).
  assert (Er : r = Ok tt).
  { pose proof (gs_eval prob x s ts r Ax ltac:(lia) K3) as G. rewrite Hk in G. tauto. }
  subst r.
  destruct (gs_again prob x s st' ts (Ok tt)) as (b & B1 & B2 & B3); auto; try lia.
  exists b. auto.
Qed.

(** ** C18 *)
(** The first attempt ever made, in the first call on a new object. *)
Theorem C18_first_step c yy0 yp0 (st0 st' : state) fuel rfuel tout tret itask t r new past t1 h k :
  config_ok c -> ida_new prob yy0 yp0 = Ret st0 ->
  solve prob ewt_set fuel rfuel (configure c st0) tout tret itask = Ret (st', t, r) ->
  tr st' = new ++ CTry t1 h k :: past -> existsb is_try past = false ->
  t1 = g_t0 c /\ k = 1%nat /\ get_actual_init_step st' = h /\
  0 < (tout - g_t0 c) * h /\ Rabs h * g_hmax_inv c <= 1 /\
  (g_hin c = 0 -> Rabs h <= / 1000 * Rabs (tout - g_t0 c) /\
     Rabs h * wrms_norm (g_idv c) yp0 (ewt_set yy0) (g_suppressalg c) <= 2) /\
  (g_hin c <> 0 -> 0 < h * g_hin c /\ Rabs h <= Rabs (g_hin c)) /\
  (forall ts, g_tstop c = Some ts -> 0 < (ts - g_t0 c) * h /\ (g_t0 c + h - ts) * h <= 0).
Proof.
  intros Hc En E Etr Np. pose proof (new_fields prob yy0 yp0 st0 En) as Nf.
  assert (Etr0 : tr (configure c st0) = []) by (change (tr st0 = []); tauto).
  assert (Ho : ordok (configure c st0)) by (apply (new_ord prob c yy0 yp0); assumption).
  assert (Hz : nst (configure c st0) = 0%nat) by (change (nst st0 = 0%nat); tauto).
  assert (Sd : setup_done st0 = false) by (clear -En; unfold ida_new in En; minv; reflexivity).
  destruct (first_attempt prob ewt_set Hl fuel rfuel (configure c st0) tout tret itask st' t r new past t1 h k Ho Hz E)
    as (s & Ef & -> & -> & -> & Eh); [rewrite Etr0, app_nil_r; exact Etr|exact Np|rewrite Etr0; reflexivity|].
  pose proof (first_call_frame _ _ _ _ _ Ef) as Fr. cbv zeta iota in Fr.
  destruct Fr as (Fk & _ & Fe & _).
  destruct (first_call_R _ _ _ _ _ Ef) as (P1 & P2 & P3 & P4 & P5 & P6).
  set (a := task_set (configure c st0) tout itask) in *.
  assert (A : tn (nlp a) = g_t0 c /\ hmax_inv a = g_hmax_inv c /\ hin a = g_hin c /\ phi a = phi st0 /\ idv a = g_idv c /\
    suppressalg a = g_suppressalg c /\ tstop a = g_tstop c /\ setup_done a = setup_done st0).
  { unfold a. destruct itask; repeat split. }
  destruct A as (A1 & A2 & A3 & A4 & A5 & A6 & A7 & A8). rewrite A8, Sd in Fe.
  assert (Ph : phi st0 = yy0 :: yp0 :: repeat (vzero n) 4) by tauto. rewrite A4, Ph in Fe, P4. cbn [row nth] in Fe.
  rewrite A1, A2, A3, A5, A6, A7 in *.
  split. { unfold fkeep in Fk. assert (Q : tn (nlp s) = tn (nlp a)) by congruence. rewrite Q. exact A1. }
  split; [reflexivity|]. split; [exact Eh|]. split; [exact P2|]. split; [exact P3|].
  split; [|auto]. intros Hh. destruct (P4 Hh) as (Q1 & Q2). split; [exact Q1|]. rewrite <- Fe. apply Q2. reflexivity.
Qed.

End OverR.

(** ** The hypotheses can be met *)

(** Lives of one scalar equation with any number of accepted steps ([ExampleR]). *)
Notation NLS0 := (ScriptNLS (@nil (option (list R)))).

Lemma three_steps : exists st, @reach R (list nat) (script R) _ _ NLS0 scalarR ewtR (configR None 0) [0] [1] st /\
  length (steps (trace (lp (nlp st)))) = 3%nat.
Proof.
  destruct (lives [] None 0 (Rle_refl 0) ltac:(discriminate) 3 ltac:(left; reflexivity) eq_refl) as (st & (Hr & _) & Hn).
  exists st. split; [exact Hr|]. rewrite <- Hn. exact (steps_nst [] None 0 st Hr).
Qed.

Example C34_hypotheses_met : exists st, config_ok (configR None 0) /\
  @reach R (list nat) (script R) _ _ NLS0 scalarR ewtR (configR None 0) [0] [1] st /\
  length (steps (trace (lp (nlp st)))) = 3%nat.
Proof. destruct three_steps as (st & Hr & Hn). exists st. split; [apply configR_ok|auto]. Qed.

Example C36_hypotheses_met : exists st, config_ok (configR None 0) /\
  @reach R (list nat) (script R) _ _ NLS0 scalarR ewtR (configR None 0) [0] [1] st /\
  length (steps (trace (lp (nlp st)))) = 3%nat.
Proof. exact C34_hypotheses_met. Qed.

Example C37_hypotheses_met : exists st, config_ok (configR None 0) /\
  @reach R (list nat) (script R) _ _ NLS0 scalarR ewtR (configR None 0) [0] [1] st /\
  length (steps (trace (lp (nlp st)))) = 3%nat.
Proof. exact C34_hypotheses_met. Qed.

Example C48_hypotheses_met : exists st, config_ok (configR None 0) /\
  @reach R (list nat) (script R) _ _ NLS0 scalarR ewtR (configR None 0) [0] [1] st /\
  length (steps (trace (lp (nlp st)))) = 3%nat.
Proof. exact C34_hypotheses_met. Qed.

Example C18_hypotheses_met : exists (st0 st' : ida R (list nat) (script R)) t r new past t1 h k,
  config_ok (configR None 0) /\ @ida_new R (list nat) (script R) _ _ NLS0 scalarR [0] [1] = Ret st0 /\
  @solve R (list nat) (script R) _ _ NLS0 scalarR ewtR 600 100 (configure (configR None 0) st0) 1 0 OneStep = Ret (st', t, r) /\
  trace (lp (nlp st')) = new ++ CTry t1 h k :: past /\ existsb is_try past = false /\ g_hin (configR None 0) = 0.
Proof.
  destruct (one_step [] None 0 (Rle_refl 0) ltac:(discriminate) ltac:(left; reflexivity)) as (st0 & st' & t & r & E1 & E2 & _ & Hr & Hn & _).
  assert (Hs : steps (trace (lp (nlp st'))) <> []).
  { pose proof (steps_nst [] None 0 st' Hr) as Hl. rewrite Hn in Hl. intros Hz. rewrite Hz in Hl. discriminate. }
  destruct (first_try_of _ (steps_try _ Hs)) as (new & t1 & h & k & past & Et & Hp).
  exists st0, st', t, (Ok r), new, past, t1, h, k. split; [apply configR_ok|]. auto 6.
Qed.

(** A stop time half way through the first step asked for: the call returns [TStop]. *)
Example C49_return_hypotheses_met : exists (st st' : ida R (list nat) (script R)) t,
  config_ok (configR (Some (/ 2)) 1) /\
  @reach R (list nat) (script R) _ _ NLS0 scalarR ewtR (configR (Some (/ 2)) 1) [0] [1] st /\
  @solve R (list nat) (script R) _ _ NLS0 scalarR ewtR 600 100 st 1 0 OneStep = Ret (st', t, Ok TStop).
Proof.
  destruct (one_step [] (Some (/ 2)) 1 ltac:(lra) ltac:(intros x Ex; injection Ex as <-; lra) ltac:(left; reflexivity))
    as (st0 & st' & t & r & E1 & E2 & _ & Hr & Hn & Ht & Q).
  destruct (Q (or_introl eq_refl) ltac:(lra)) as (Q1 & _ & h' & Q2 & Q3).
  assert (r = TStop).
  { apply Q3. exists (/ 2). split; [reflexivity|]. pose proof eps_pos as (P1 & P2). pose proof (Rabs_pos h').
    unfold first_h. replace (Rltb 0 ((0 + 1 - / 2) * 1)) with true by (symmetry; apply Rltb_true; lra).
    replace ((/ 2 - 0) * (1 - 4 * eps) - / 2) with (- (2 * eps)) by lra. rewrite Rabs_Ropp, (Rabs_right (2 * eps)) by lra.
    rewrite (Rabs_right ((/ 2 - 0) * (1 - 4 * eps))) by nra. unfold eps in *. nra. }
  subst r. exists (configure (configR (Some (/ 2)) 1) st0), st', t. split; [apply configR_ok|]. split; [constructor; exact E1|exact E2].
Qed.

(** A stop time ahead of the first step: it stays set. *)
Example C49_hypotheses_met : exists st : ida R (list nat) (script R),
  config_ok (configR (Some 1) (/ 4)) /\
  @reach R (list nat) (script R) _ _ NLS0 scalarR ewtR (configR (Some 1) (/ 4)) [0] [1] st /\
  tstop st = Some 1 /\ length (steps (trace (lp (nlp st)))) = 1%nat.
Proof.
  destruct (one_step [] (Some 1) (/ 4) ltac:(lra) ltac:(intros x Ex; injection Ex as <-; lra) ltac:(left; reflexivity))
    as (st0 & st' & t & r & E1 & E2 & Hrs & Hr & Hn & Ht & Q).
  destruct (Q (or_introl eq_refl) ltac:(lra)) as (Q1 & Q1' & h' & Q2 & Q3).
  assert (F : first_h (Some 1) (/ 4) = / 4).
  { unfold first_h. replace (Rltb 0 ((0 + / 4 - 1) * / 4)) with false by (symmetry; apply Rltb_false; lra). reflexivity. }
  rewrite F in *. rewrite (Rabs_right (/ 4)) in * by lra.
  assert (r = Success).
  { destruct Hrs as [-> | ->]; [reflexivity|exfalso]. destruct (proj1 Q3 eq_refl) as (x & Ex & Hx). injection Ex as <-.
    replace (/ 4 - 1) with (- (3 / 4)) in Hx by lra. rewrite Rabs_Ropp, (Rabs_right (3 / 4)) in Hx by lra.
    unfold eps in Hx. lra. }
  subst r. exists st'. split; [apply configR_ok|]. split; [exact Hr|]. split; [apply Q1'; reflexivity|].
  rewrite <- Hn. exact (steps_nst [] (Some 1) (/ 4) st' Hr).
Qed.

Print Assumptions C18_first_step.
Print Assumptions C34_retries_shrink.
Print Assumptions C36_next_step_size.
Print Assumptions C37_max_step_respected.
Print Assumptions C45_outputs_at_tout.
Print Assumptions C48_time_moves_forward.
Print Assumptions C49_never_past_tstop.
Print Assumptions C49_tstop_return.
