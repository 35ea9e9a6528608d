(** * ExampleR: lives of an integrator object over the reals

    One scalar equation, error weights 1/(1+|y|), a nonlinear solver answering
    from a script ([Script]).  For every [m] there is a life that completes [m]
    steps; with the script [[Some [100]]] the very first attempt fails the
    error test.  Used to show that hypotheses of theorems over the reals can be
    met. *)
Require Import List Arith Bool Lia Reals Lra Psatz.
Import ListNotations.
Require Import Verif.Base Verif.Scalar Verif.ScalarR Verif.Dense Verif.Norms Verif.NormsR Verif.Newton Verif.NewtonSpec Verif.IdaState
  Verif.IdaNls Verif.IdaCore Verif.IdaRoots Verif.IdaSolve Verif.IdaIo Verif.BaseFacts Verif.RSum Verif.NewtonFacts
  Verif.IdaFacts Verif.IdaLoops Verif.IdaStep Verif.IdaSpec Verif.IdaShell Verif.IdaReach Verif.IdaInv
  Verif.IdaCount Verif.IdaLife Verif.IdaTrace Verif.VecR Verif.IdaAccept Verif.IdaStepR Verif.IdaInterp Verif.IdaSafe Verif.IdaCall Verif.IdaCallR
  Verif.Script Verif.PropSafe Verif.PropSolve.
Open Scope nat_scope.

Section Attempt.
Context {T LSt : Type} `{Scalar T} `{LSolver T LSt}.
Variable s0 : script T.
Local Instance NLS_ : NLSolver T (script T) := ScriptNLS s0.
Variable prob : problem T.
Notation n := (model_size prob).
Notation state := (ida T LSt (script T)).

Lemma script_nonlinear (st st' : state) r : nonlinear_solve prob st = Ret (st', r) ->
  nls st' = tl (nls st) /\
  (nls st = [] -> ee st' = vzero n /\ r = Ok tt) /\
  (forall e l, nls st = Some e :: l -> ee st' = e /\ r = Ok tt).
Proof.
  unfold nonlinear_solve. destruct (nls_prepare_calls prob st) as (x & b & Ep & _). rewrite Ep.
  cbn [nls_setup nls_solve NLS_ ScriptNLS]. rewrite bind_ret. cbv iota. intros E.
  apply bind_ret_inv in E. destruct E as ((((s & y) & ev) & r1) & E1 & E). cbv beta iota in E.
  unfold script_solve in E1. apply bind_ret_inv in E1. destruct E1 as (((x1 & f) & r2) & _ & E1). cbv beta iota in E1.
  injection E1 as <- <- <- <-.
  change (nls (IdaState.set_delta _ (set_nls (nls _) _))) with (nls st) in E.
  destruct (nls st) as [|[e|] l] eqn:En; cbv iota in E.
  - destruct (constraints_set _); [discriminate|]. injection E as <- <-. split; [reflexivity|]. split; [auto|discriminate].
  - destruct (constraints_set _); [discriminate|]. injection E as <- <-. split; [reflexivity|]. split; [discriminate|].
    intros e' l' E'. injection E' as -> ->. auto.
  - injection E as <- <-. split; [reflexivity|]. split; discriminate.
Qed.

Lemma script_try (st st1 : state) ck ek ek1 r : try_step prob st = Ret (st1, ck, ek, ek1, r) ->
  nls st1 = tl (nls st) /\
  (nls st = [] -> ee st1 = vzero n /\ forall m, r <> Err (ENls m)) /\
  (forall e l, nls st = Some e :: l -> ee st1 = e /\ forall m, r <> Err (ENls m)).
Proof.
  unfold try_step. intros E.
  set (sx := on_lp (push_ev (CTry (tn (nlp st)) (hh st) (kk st))) st) in E.
  apply bind_ret_inv in E as ((s1 & c1) & E1 & E). apply bind_ret_inv in E as (s2 & E2 & E).
  apply bind_ret_inv in E as ((s3 & r3) & E3 & E). cbv beta iota in E.
  assert (N : nls s2 = nls st).
  { destruct (set_coeffs_frame _ _ _ _ E1) as (_ & _ & _ & _ & _ & _ & _ & N1 & _).
    destruct (predict_frame _ _ _ E2) as (_ & _ & _ & _ & _ & N2 & _). rewrite advance_tn_eq in N2.
    assert (Q1 : nls s1 = nls st) by (change (nls st) with (nls sx); congruence).
    unfold stepst in N2. change (nls (on_nlp (set_tn (tn_next s1)) s1)) with (nls s1) in N2. congruence. }
  destruct (script_nonlinear _ _ _ E3) as (P1 & P2 & P3). rewrite N in P1, P2, P3.
  destruct r3 as [u|e].
  - apply bind_ret_inv in E as ((((s4 & ek') & ek1') & r4) & E4 & E). cbv beta iota in E. injection E as <- <- <- <- <-.
    pose proof (test_error_ee _ _ _ _ _ _ _ E4) as Ee.
    destruct (test_error_frame _ _ _ _ _ _ _ E4) as (_ & _ & _ & _ & _ & _ & _ & _ & F & _ & Fr).
    assert (N4 : nls s4 = nls s3) by congruence.
    assert (Nr : forall m, r4 <> Err (ENls m)).
    { intros m ->. destruct Fr as (Fr & _). discriminate. }
    rewrite Ee, N4. split; [exact P1|]. split; [intros Q; destruct (P2 Q); auto|intros e l Q; destruct (P3 e l Q); auto].
  - injection E as <- _ _ _ <-. split; [exact P1|].
    split; [intros Q; destruct (P2 Q); discriminate|intros e' l Q; destruct (P3 e' l Q); discriminate].
Qed.

(** The residual is evaluated in every attempt. *)
Lemma script_solve_trace (s s' : script T) (x x' : nlprob T LSt) d y w tol call y' r :
  script_solve _ (ida_nlproblem prob) n s x d y w tol call = Ret (s', x', y', r) ->
  exists t y yp, trace (lp x') = CRes t y yp :: trace (lp x).
Proof.
  unfold script_solve. intros E. apply bind_ret_inv in E. destruct E as (((x1 & f) & r2) & E & E').
  cbv beta iota in E'. injection E' as _ <- _ _. cbn [np_sys ida_nlproblem] in E. unfold nlp_sys in E. minv.
  eexists _, _, _. reflexivity.
Qed.

Lemma script_nonlinear_trace (st st' : state) r : nonlinear_solve prob st = Ret (st', r) ->
  exists t y yp, trace (lp (nlp st')) = CRes t y yp :: trace (lp (nlp st)).
Proof.
  unfold nonlinear_solve. destruct (nls_prepare_calls prob st) as (x & b & Ep & _ & Hc & _). rewrite Ep.
  cbn [nls_setup nls_solve NLS_ ScriptNLS]. rewrite bind_ret. cbv iota. intros E.
  apply bind_ret_inv in E. destruct E as ((((s & y) & ev) & r1) & E1 & E). cbv beta iota in E.
  apply script_solve_trace in E1. destruct E1 as (t & y1 & yp1 & E1).
  change (nlp (IdaState.set_delta _ _)) with x in E1. cbn [app] in Hc. rewrite Hc in E1. exists t, y1, yp1. rewrite <- E1.
  destruct r1 as [u|e1]; [destruct (constraints_set _); [discriminate|]|]; injection E as <- _; reflexivity.
Qed.

Lemma script_try_trace (st st1 : state) ck ek ek1 r : try_step prob st = Ret (st1, ck, ek, ek1, r) ->
  exists evs t y yp, trace (lp (nlp st1)) = evs ++ CRes t y yp :: CTry (tn (nlp st)) (hh st) (kk st) :: trace (lp (nlp st)).
Proof.
  unfold try_step. intros E. set (sx := on_lp (push_ev (CTry (tn (nlp st)) (hh st) (kk st))) st) in E.
  apply bind_ret_inv in E as ((s1 & c1) & E1 & E). apply bind_ret_inv in E as (s2 & E2 & E).
  apply bind_ret_inv in E as ((s3 & r3) & E3 & E). cbv beta iota in E.
  assert (N1 : trace (lp (nlp s1)) = trace (lp (nlp sx))) by (rewrite (set_coeffs_calls _ _ _ _ E1); reflexivity).
  change (trace (lp (nlp sx))) with (CTry (tn (nlp st)) (hh st) (kk st) :: trace (lp (nlp st))) in N1.
  assert (N2 : trace (lp (nlp s2)) = trace (lp (nlp s1))).
  { destruct (predict_frame _ _ _ E2) as (_ & _ & _ & _ & _ & _ & Q). rewrite advance_tn_eq in Q. rewrite Q. reflexivity. }
  destruct (script_nonlinear_trace _ _ _ E3) as (t & y & yp & N3). rewrite N2, N1 in N3. clear N2 N1 E1 E2 E3.
  destruct r3 as [u|e].
  - apply bind_ret_inv in E as ((((s4 & ek') & ek1') & r4) & E4 & E). cbv beta iota in E. injection E as <- _ _ _ _.
    destruct (test_error_calls _ _ _ _ _ _ _ E4) as (l & Q1 & Q2). exists (fails r4), t, y, yp. rewrite Q1.
    change (lp (set_lp l (nlp s3))) with l. rewrite Q2, <- N3. reflexivity.
  - injection E as <- _ _ _ _. exists [], t, y, yp. exact N3.
Qed.

End Attempt.

Open Scope R_scope.

Lemma zero_norm idm n (w : list R) b : wrms_norm idm (vzero n) w b = 0.
Proof.
  assert (Z : forall f g, (forall i, (i < n)%nat -> f i = 0) -> wrms n f g = 0).
  { intros f g Hf. unfold wrms. rewrite (rsum_0 n) by (intros i Hi; rewrite Hf by exact Hi; ring).
    unfold Rdiv. rewrite Rmult_0_l. apply sqrt_0. }
  unfold wrms_norm. destruct b.
  - rewrite norm_wrms_masked_eq, length_vzero. apply Z. intros i _. pose proof (@vget_vzero R _ n i) as V. unfold vget in V.
    change szero with 0 in V. rewrite V. destruct (nth i idm false); reflexivity.
  - rewrite norm_wrms_eq, length_vzero. apply Z. intros i _. exact (@vget_vzero R _ n i).
Qed.

Section Life.
Variable s0 : script R.
Local Instance NLS_R : NLSolver R (script R) := ScriptNLS s0.
Variable ts : option R.
(** The initial step asked for, 0 for none. *)
Variable h1 : R.
Hypothesis Hh1 : 0 <= h1.

(** 0 = 0; only the script decides the corrections. *)
Definition scalarR : problem R := mkproblem 1 0 (fun _ _ _ _ => 0) (fun _ _ _ _ _ _ _ => 1) (fun _ _ _ _ => 0).
Definition ewtR : list R -> list R := ewt_set_ss 1 1.
Definition configR : @config R := mkconfig 5 500 10 10 h1 0 (33 / 100) 0 ts false [false] [].
Notation state := (ida R (list nat) (script R)).
Notation tr st := (trace (lp (nlp st))).
Notation reached := (reach scalarR ewtR configR [0] [1]).

Lemma configR_ok : config_ok configR.
Proof. unfold config_ok. cbn. lia. Qed.

Let Hl : @nls_lawful R (script R) _ := script_lawful s0.

(** Nothing but zero corrections, except perhaps for the last entry. *)
Definition short (s : script R) : Prop := s = [] \/ exists m e, s = repeat (Some [0]) m ++ [Some e].

(** The next correction is zero. *)
Definition zhead (s : script R) : Prop := s = [] \/ exists l, s = Some [0] :: l.

Lemma short_tl s : short s -> short (tl s).
Proof. intros [-> |([|m] & e & ->)]; [left; reflexivity|left; reflexivity|right; exists m, e; reflexivity]. Qed.

(** At most one attempt will fail before the next step is done. *)
Definition usable (s : script R) : Prop := zhead s \/ exists e, s = [Some e].

Lemma short_usable s : short s -> usable s.
Proof.
  intros [-> |([|m] & e & ->)]; [left; left; reflexivity|right; exists e; reflexivity|left; right; exists (repeat (Some [0]) m ++ [Some e]); reflexivity].
Qed.

Lemma zero_ee (st st1 : state) ck ek ek1 r : zhead (nls st) -> try_step scalarR st = Ret (st1, ck, ek, ek1, r) ->
  ee st1 = vzero 1 /\ forall m, r <> Err (ENls m).
Proof.
  intros Hn E. destruct (script_try s0 _ _ _ _ _ _ _ E) as (_ & P & P'). destruct Hn as [Hn|(l & Hn)]; [exact (P Hn)|exact (P' _ _ Hn)].
Qed.

Lemma zero_accepts (st st1 : state) ck ek ek1 r :
  arrays st -> (kk st <= 5)%nat -> zhead (nls st) -> try_step scalarR st = Ret (st1, ck, ek, ek1, r) -> r = Ok tt.
Proof.
  intros Ha Hk Hn E. destruct (zero_ee _ _ _ _ _ _ Hn E) as (P1 & P2).
  pose proof (try_step_spec scalarR Hl _ _ _ _ _ _ Ha Hk E) as Htr. pose proof (tr_res _ _ _ _ _ Htr) as Q.
  destruct r as [[]|[[]| |]]; try contradiction; [reflexivity| |exfalso; eapply P2; reflexivity].
  destruct Q as (_ & _ & Q). rewrite P1, zero_norm in Q. apply Rleb_false in Q. cbn in Q. lra.
Qed.

Lemma tries_script t0 (st st' : state) nef : arrays st -> (1 <= kk st <= maxord st)%nat -> (maxord st <= 5)%nat ->
  usable (nls st) -> tries scalarR t0 st st' nef ->
  (st' = st /\ nef = 0%nat) \/ ((exists e, nls st = [Some e]) /\ nls st' = [] /\ nef = 1%nat /\ netf st' = (netf st + 1)%nat).
Proof.
  intros Ha Hk Hm Hs. induction 1 as [|sa nef s1 ck ek ek1 sb Ht IH Et Htr Hn Hrt]; [left; auto|right].
  destruct (tries_ord scalarR _ _ _ _ Ha Hk Ht) as (B1 & B2 & _).
  destruct IH as [(-> & ->)|(_ & Hz & _)].
  - pose proof (rt_keep _ _ _ _ _ Hrt) as K. pose proof (rt_netf _ _ _ _ _ Hrt) as K1. pose proof (tr_cnt _ _ _ _ _ Htr) as K2.
    destruct (script_try s0 _ _ _ _ _ _ _ Et) as (P1 & _).
    assert (He : exists e, nls st = [Some e]).
    { destruct Hs as [Hz|He]; [|exact He]. exfalso.
      pose proof (zero_accepts _ _ _ _ _ _ B1 ltac:(lia) Hz Et). discriminate. }
    split; [exact He|]. assert (nls s1 = []) by (rewrite P1; destruct He as (e & ->); reflexivity).
    pinj. split; [congruence|]. split; [reflexivity|]. congruence.
  - exfalso. pose proof (zero_accepts _ _ _ _ _ _ B1 ltac:(lia) (or_introl Hz) Et). discriminate.
Qed.

Lemma script_step fuel (st st' : state) r : ordok st -> usable (nls st) -> step scalarR fuel st = Ret (st', r) ->
  r = Ok tt /\ nls st' = tl (nls st) /\ (netf st' = netf st \/ netf st' = netf st + 1)%nat /\
  (zhead (nls st) -> hused st' = hh st /\ tn (nlp st') = tn_next (st_init st) /\ next_h (hmax_inv st) (hh st) (hh st') /\
     (nst st = 0%nat -> hh st <> 0 -> vget (row (phi st') 0) 0 = vget (row (phi st) 0) 0 + vget (row (phi st) 1) 0)).
Proof.
  intros Ho Hs E. pose proof (instep_init st Ho) as Hi.
  destruct (step_spec scalarR Hl _ _ _ _ Ho E) as (sta & nef & s1 & ck & ek & ek1 & r1 & Ht & Et & Htr & Hc).
  destruct (init_fields st) as (_ & _ & _ & _ & _ & _ & _ & _ & _ & F10 & _).
  assert (Hn : nls (st_init st) = nls st) by (unfold st_init; cbv zeta; destruct (_ =? _)%nat; reflexivity).
  pose proof (tries_script _ _ _ _ (is_arr _ Hi) (is_kk _ Hi) (is_max _ Hi) ltac:(rewrite Hn; exact Hs) Ht) as Hb.
  destruct (tries_start scalarR _ _ _ Ho Ht) as (B1 & B2 & _). pose proof (is_max _ Hi). pose proof (is_kk _ Hi).
  destruct (script_try s0 _ _ _ _ _ _ _ Et) as (P1 & P2 & P3).
  assert (N1 : nls s1 = tl (nls st)).
  { rewrite P1. destruct Hb as [(-> & _)|((e & He) & -> & _)]; [congruence|]. rewrite Hn in He. rewrite He. reflexivity. }
  pose proof (tr_cnt _ _ _ _ _ Htr) as K2.
  destruct Hc as [(-> & -> & st2 & Hcp & ->)|(e & -> & Hg & Hc)].
  - pose proof (cp_keep _ _ _ Hcp) as K. split; [reflexivity|].
    change (nls (st_commit scalarR ck st2)) with (nls st2). change (netf (st_commit scalarR ck st2)) with (netf st2).
    change (hused (st_commit scalarR ck st2)) with (hused st2). change (hh (st_commit scalarR ck st2)) with (hh st2).
    pose proof (cp_used _ _ _ Hcp) as Ku. pose proof (cp_hh _ _ _ Hcp) as Kh. pose proof (tr_h _ _ _ _ _ Htr) as Kt.
    pose proof (tr_cfg _ _ _ _ _ Htr) as Kc. pose proof (tr_tn _ _ _ _ _ Htr) as Ktn.
    change (tn (nlp (st_commit scalarR ck st2))) with (tn (nlp st2)). rewrite (cp_nlp _ _ _ Hcp).
    assert (Hhm : hmax_inv s1 = hmax_inv sta) by (unfold cfg in Kc; congruence).
    injection K as K1 K3 K4 K5 K6 K7 K8 K9. injection Ku as Ku1 Ku2 Ku3. injection Kt as Kt1 Kt2 Kt3. injection K2 as J1 J2 J3.
    split; [congruence|]. split; [destruct Hb as [(-> & _)|(_ & _ & _ & Hb)]; [left|right]; congruence|].
    intros Hz. assert (sta = st_init st).
    { destruct Hb as [(-> & _)|((e & He) & _ & -> & _)]; [reflexivity|exfalso].
      inversion Ht as [|sa nef' s1' ck' ek' ek1' sb Ht' Et' Htr' Hn' Hrt']. subst.
      assert (nef' = 0%nat) by lia. subst nef'. inversion Ht'; subst; [|lia].
      rewrite <- Hn in Hz. pose proof (zero_accepts _ _ _ _ _ _ (is_arr _ Hi) ltac:(lia) Hz Et'). discriminate. }
    subst sta. rewrite Ku2, Ktn. rewrite Kt1 in *. rewrite Hhm in Kh.
    assert (Hh0 : hh (st_init st) = hh st /\ hmax_inv (st_init st) = hmax_inv st) by (unfold st_init; cbv zeta; destruct (_ =? _)%nat; auto).
    destruct Hh0 as (Hh0 & <-). rewrite <- Hh0. split; [reflexivity|]. split; [reflexivity|]. split; [exact Kh|].
    intros Hz0 Hnz. rewrite <- Hn in Hz. destruct (zero_ee _ _ _ _ _ _ Hz Et) as (Ee & _).
    change (phi (st_commit scalarR ck st2)) with (phi st2). pose proof (tr_ord _ _ _ _ _ Htr) as Ko. injection Ko as Ko1 Ko2 Ko3.
    assert (I : kk (st_init st) = 1%nat /\ ns (st_init st) = 0%nat /\ kused (st_init st) = 0%nat /\ phi (st_init st) = phi st /\ vget (psi (st_init st)) 0 = hh st).
    { destruct Ho as ((_ & L6 & _) & _). unfold st_init. cbv zeta. change (nst (on_lp _ st)) with (nst st). rewrite Hz0. repeat split.
      change (vget (upd (psi st) 0 (hh st)) 0 = hh st). unfold vget. apply nth_upd_eq. lia. }
    destruct I as (I1 & I2 & I3 & I4 & I5). rewrite I1 in Ko1.
    rewrite (cp_row _ _ _ Hcp 0%nat) by lia. rewrite Ko1, Ee. change (1 + 1 - 0)%nat with (1 + 1)%nat.
    rewrite tailsum_rowsum. cbn [rowsum Nat.add]. rewrite !vget_vadd, !vget_vzero by (cbn; lia). cbn [sadd szero ScalarR].
    destruct (tr_coeffs _ _ _ _ _ Htr) as (Cn & C1 & _ & C2 & C3).
    assert (Ns : ns s1 = 1%nat). { rewrite Cn. unfold ns_next. rewrite I2, I3. destruct (sneqb _ _ || _)%bool; reflexivity. }
    rewrite Ns, I1 in *. destruct (C1 ltac:(lia)) as (D0 & D1 & _ & _ & _ & D & _). destruct (D 1%nat ltac:(lia)) as (_ & D2 & _).
    change (1 - 1)%nat with 0%nat in D2. rewrite D0, D1, I5 in D2. cbn [sone smul sdiv ScalarR] in D2.
    rewrite (C3 0%nat), (C2 1%nat) by lia. rewrite vget_vscale by (cbn; lia). rewrite D2, I4, Hh0. cbn [smul ScalarR].
    rewrite Hh0 in Hnz. replace (1 * hh st / hh st) with 1 by (field; exact Hnz). ring.
  - exfalso. destruct Hc as [(-> & _ & Hnef & _)|((m & ->) & _)].
    + destruct Hb as [(_ & ->)|(_ & _ & -> & _)]; lia.
    + destruct Hb as [(Es & _)|(_ & Hz & _)].
      * rewrite Es, Hn in P2, P3. destruct Hs as [[Hz|(l & Hz)]|(e & Hz)];
          [destruct (P2 Hz) as (_ & Q)|destruct (P3 _ _ Hz) as (_ & Q)|destruct (P3 _ _ Hz) as (_ & Q)]; eapply Q; reflexivity.
      * destruct (P2 Hz) as (_ & Q). eapply Q; reflexivity.
Qed.

(** The weights are positive and the norm of the solution is below one. *)
Lemma ewtR_pos y : existsb (fun x => Rleb x 0) (ewtR y) = false.
Proof.
  unfold ewtR, ewt_set_ss. rewrite <- not_true_iff_false, existsb_exists. intros (x & Hx & Hle).
  apply in_map_iff in Hx. destruct Hx as (v & <- & _). apply Rleb_true in Hle. cbn in Hle.
  pose proof (Rabs_pos v). assert (0 < / (1 * Rabs v + 1)) by (apply Rinv_0_lt_compat; lra). unfold Rdiv in Hle. lra.
Qed.

Lemma ewtR_norm idm y : (1 <= length y)%nat -> wrms_norm idm y (ewtR y) false <= 1.
Proof.
  intros Hy. unfold wrms_norm, ewtR. apply ewt_ss_norm; auto; try lra. intros i _. pose proof (Rabs_pos (nth i y 0)). lra.
Qed.

Lemma no_tmw (st : state) tret x : mxstep st = 500%nat -> suppressalg st = false -> length (row (phi st) 0) = 1%nat ->
  (nst st = 0%nat -> ewt (nlp st) = ewtR (row (phi st) 0)) ->
  pre_step scalarR ewtR st tret 0 = Ret x -> exists s, x = inr s.
Proof.
  intros Hm Hsup Hlen Hw E.
  assert (W : next_w ewtR st = ewtR (row (phi st) 0)).
  { unfold next_w. destruct (Nat.eqb_spec (nst st) 0); auto. }
  destruct (pre_step_cases _ _ _ _ _ _ E) as [(Q & _)|(_ & [(_ & Q & _)|(_ & [(Q & _)|(_ & s & _ & _ & Q)])])].
  - lia.
  - exfalso. rewrite W in Q. change (existsb (fun x => Rleb x 0) (ewtR (row (phi st) 0)) = true) in Q. rewrite ewtR_pos in Q. discriminate.
  - exfalso. unfold next_norm in Q. rewrite W, Hsup in Q. change (Rltb 1 (eps * wrms_norm (idv st) (row (phi st) 0) (ewtR (row (phi st) 0)) false) = true) in Q.
    apply Rltb_true in Q. pose proof (ewtR_norm (idv st) (row (phi st) 0) ltac:(lia)).
    pose proof (wrms_norm_nonneg (idv st) (row (phi st) 0) (ewtR (row (phi st) 0)) false). pose proof eps_pos. nra.
  - eauto.
Qed.

(** ** Rows keep their length *)
Definition rows1 (o : option (R * nat)) (st : state) : Prop := length (row (phi st) 0) = 1%nat.

Lemma length_rowsum1 ph k : length (rowsum scalarR ph (S k)) = 1%nat.
Proof. cbn [rowsum]. apply length_vadd. Qed.

Lemma length_tail e ph j k : length (tailsum scalarR e ph j (S k)) = 1%nat.
Proof. cbn [tailsum]. apply length_vadd. Qed.

Lemma reached_row (st : state) : reached st -> rows1 None st.
Proof.
  intros Hr. refine (reach_life scalarR ewtR Hl rows1 configR [0] [1] st configR_ok _ _ _ _ _ Hr); unfold rows1.
  - intros s Es. pose proof (new_fields scalarR [0] [1] s Es) as Nf.
    assert (P : phi s = [0] :: [1] :: repeat (vzero 1) 4) by tauto.
    change (phi (configure configR s)) with (phi s). rewrite P. reflexivity.
  - intros a b _ Ha Sh. pose proof (core_fields _ _ (sh_core _ _ _ Sh)) as C1. assert (phi b = phi a) by tauto. congruence.
  - intros a b _ Ha _ L. destruct (lims_fields _ _ L) as (h & ->). exact Ha.
  - intros a tout x Ho Ha Hz Ef. pose proof (first_call_frame _ _ _ _ _ Ef) as Fr. cbv zeta in Fr.
    destruct x as [(s & m)|s]; destruct Fr as (_ & _ & _ & _ & Fr).
    + destruct Fr as (-> & _). exact Ha.
    + destruct Fr as (Fp & _). destruct Ho as ((L6 & _) & _). rewrite Fp by lia. unfold row. rewrite nth_upd_neq by lia. exact Ha.
  - split; [|split; [|split]].
    + intros a Ho Ha _ _. destruct (init_fields a) as (_ & _ & _ & _ & _ & F6 & _). rewrite F6. exact Ha.
    + intros a t0 nef s1 ck ek ek1 sb Hi Ha Et Htr _ _ Hrt.
      destruct (rt_hist _ _ _ _ _ Hrt) as (ps & ph & (L1 & L2 & _ & _ & R1 & R2) & P1 & P2).
      pose proof (tr_coeffs _ _ _ _ _ Htr) as (Cn & _ & _ & C1 & C2).
      pose proof (ns_next_pos a) as Hns. rewrite <- Cn in Hns.
      assert (Q1 : row (phi s1) 0 = row (phi a) 0) by (apply C2; lia).
      assert (Q2 : row ph 0 = row (phi s1) 0) by (apply R2; lia).
      destruct (Nat.eq_dec (nst s1) 0) as [Z|Z].
      * destruct (P2 Z) as (_ & ->). rewrite nth_map_row by lia. apply length_vscale.
      * destruct (P1 Z) as (_ & ->). rewrite Q2, Q1. exact Ha.
    + intros a t0 nef s1 ck ek ek1 s2 Hi Ha Et Htr _ Hcp.
      change (phi (st_commit scalarR ck s2)) with (phi s2). rewrite (cp_row _ _ _ Hcp 0%nat) by lia.
      replace (kk s1 + 1 - 0)%nat with (S (kk s1)) by lia. apply length_tail.
    + intros a t0 nef s1 ck ek ek1 sb e Hi Ha Et Htr _ Hg _.
      destruct (gu_hist _ _ _ _ Hg) as (_ & _ & _ & _ & R1 & R2).
      pose proof (tr_coeffs _ _ _ _ _ Htr) as (Cn & _ & _ & C1 & C2).
      pose proof (ns_next_pos a) as Hns. rewrite <- Cn in Hns.
      rewrite R2, C2 by lia. exact Ha.
Qed.

(** ** One call *)
Hypothesis Hts : forall x, ts = Some x -> 0 < x.

Definition first_h : R :=
  match ts with
  | None => h1
  | Some x => if Rltb 0 ((0 + h1 - x) * h1) then (x - 0) * (1 - 4 * eps) else h1
  end.

Lemma first_accepted (st : state) x : tn (nlp st) = 0 -> hin st = h1 -> hmax_inv st = 0 -> tstop st = ts ->
  first_step st 1 = Ret x -> exists s, x = inr s /\ (0 < h1 -> hh s = first_h).
Proof.
  intros Ht Hh Hm Es E. unfold first_step in E. cbv zeta in E. rewrite Ht in E. cbn in E.
  assert (A : Rabs (1 - 0) = 1) by (rewrite Rminus_0_r; apply Rabs_R1). rewrite A in E.
  assert (A0 : Rabs 0 = 0) by apply Rabs_R0. assert (A1 : Rabs 1 = 1) by apply Rabs_R1. rewrite A0, A1 in E.
  pose proof eps_pos as (Ep & Ep4). change (/ 4503599627370496) with eps in E.
  replace (Reqb 1 0) with false in E by (symmetry; apply Reqb_false; lra).
  replace (Rltb 1 (2 * eps * (0 + 1))) with false in E by (symmetry; apply Rltb_false; lra).
  rewrite Hh in E. unfold sneqb in E. cbn in E.
  rewrite Ht in E. replace (Rltb ((1 - 0) * h1) 0) with false in E by (symmetry; apply Rltb_false; lra).
  rewrite andb_false_r in E.
  apply bind_ret_inv in E. destruct E as (s1 & E1 & E). cbv beta in E.
  assert (P : 0 < hh s1 /\ (0 < h1 -> hh s1 = h1) /\ tstop s1 = ts /\ tn (nlp s1) = 0 /\ hmax_inv s1 = 0).
  { destruct (Reqb h1 0) eqn:E0.
    - apply Reqb_true in E0.
      apply bind_ret_inv in E1. destruct E1 as (p1 & _ & E1). cbv beta in E1.
      set (nrm := wrms_norm (idv st) p1 (ewt (nlp st)) (suppressalg st)) in *.
      assert (L1 : Rltb 1 0 = false) by (apply Rltb_false; lra).
      apply ret_inj in E1. subst s1.
      destruct (Rltb (2 / (/ 1000 * 1)) nrm) eqn:En;
        match goal with |- context [tn (nlp (set_hh ?a ?b))] => change (tn (nlp (set_hh a b))) with (tn (nlp st)) end;
        rewrite Ht, L1; (split; [|split; [lra|auto]]); [|change (0 < / 1000 * 1); lra].
      match goal with |- 0 < hh (set_hh ?a ?b) => change (0 < a) end.
      apply Rltb_true in En. assert (0 < nrm). { eapply Rlt_trans; [|exact En]. unfold Rdiv. apply Rmult_lt_0_compat; [lra|]. apply Rinv_0_lt_compat. lra. }
      unfold Rdiv. apply Rmult_lt_0_compat; [lra|]. apply Rinv_0_lt_compat. assumption.
    - apply Reqb_false in E0. apply ret_inj in E1. subst s1. change (hh (set_hh h1 st)) with h1. split; [lra|auto]. }
  destruct P as (P1 & P1' & P2 & P3 & P4). rewrite P4 in E. rewrite Rmult_0_r in E.
  replace (Rltb 1 0) with false in E by (symmetry; apply Rltb_false; lra). rewrite P2, P3 in E. unfold first_h.
  destruct ts as [y|] eqn:Ets; [|apply ret_inj in E; exists s1; auto].
  assert (Q : Rleb ((y - 0) * hh s1) 0 = false). { apply Rleb_false. specialize (Hts y eq_refl). nra. }
  rewrite Q in E. apply ret_inj in E. eexists. split; [symmetry; exact E|]. intros Hp. specialize (P1' Hp).
  unfold limit_to_tstop. cbn. rewrite P3, P1'. change (/ 4503599627370496) with eps. destruct (Rltb 0 _); [reflexivity|exact P1'].
Qed.

Lemma first_call_accepted (st : state) x : tn (nlp st) = 0 -> hin st = h1 -> hmax_inv st = 0 -> tstop st = ts -> nrtfn st = 0%nat ->
  first_call scalarR ewtR st 1 = Ret x -> exists s, x = inr s /\ (0 < h1 -> hh s = first_h).
Proof.
  intros Ht Hh Hm Es Hn E. unfold first_call in E.
  apply bind_ret_inv in E. destruct E as (s1 & E1 & E). cbv beta in E.
  assert (F : tn (nlp s1) = 0 /\ hin s1 = h1 /\ hmax_inv s1 = 0 /\ tstop s1 = ts /\ nrtfn s1 = 0%nat).
  { destruct (setup_done st); [injection E1 as <-; auto|].
    apply bind_ret_inv in E1. destruct E1 as (s2 & E2 & E1). cbv beta in E1. injection E1 as <-.
    unfold initial_setup in E2. apply bind_ret_inv in E2. destruct E2 as (p & _ & E2). cbv beta in E2. injection E2 as <-. auto. }
  destruct F as (F1 & F2 & F3 & F4 & F5). apply bind_ret_inv in E. destruct E as (r & Er & E). cbv beta in E.
  assert (N2 : forall s, r = inr s -> nrtfn s = 0%nat).
  { intros s ->. destruct (first_step_frame _ _ _ Er) as (h & ->). exact F5. }
  destruct (first_accepted _ _ F1 F2 F3 F4 Er) as (s2 & -> & Hs2). specialize (N2 _ eq_refl). cbv zeta in E.
  apply bind_ret_inv in E. destruct E as (s3 & E3 & E). cbv beta in E.
  match type of E3 with (if (0 <? nrtfn ?s)%nat then _ else _) = _ => change (nrtfn s) with (nrtfn s2) in E3 end.
  rewrite N2 in E3. cbn [Nat.ltb Nat.leb] in E3. apply ret_inj in E3. subst s3.
  apply bind_ret_inv in E. destruct E as (p1 & _ & E). cbv beta in E.
  apply bind_ret_inv in E. destruct E as (p2 & _ & E). cbv beta zeta in E. apply ret_inj in E. subst x.
  eexists. split; [reflexivity|exact Hs2].
Qed.

Definition untouched (st : state) : Prop := exists st0, ida_new scalarR [0] [1] = Ret st0 /\ st = configure configR st0.

(** The object before its first call, or after a call that returned the end of
    a step. *)
Definition ready (st : state) : Prop :=
  reached st /\ usable (nls st) /\ (untouched st \/ ts = None /\ nst st <> 0%nat /\ tretlast st = tn (nlp st)).

Lemma new_exists : exists st0 : state, ida_new scalarR [0] [1] = Ret st0 /\ nls st0 = s0 /\ netf st0 = 0%nat.
Proof. unfold ida_new. cbn. eexists. split; [reflexivity|]. split; reflexivity. Qed.

Lemma first_keep (st s : state) tout : first_call scalarR ewtR st tout = Ret (inr s) ->
  tn (nlp s) = tn (nlp st) /\ tstop s = tstop st /\ hmax_inv s = hmax_inv st.
Proof.
  intros E. pose proof (first_call_frame _ _ _ _ _ E) as Fr. cbv zeta iota in Fr. destruct Fr as (Fk & _).
  unfold fkeep, cfg in Fk. pinj. auto.
Qed.

Lemma pre_tstop (st s : state) tret nl : pre_step scalarR ewtR st tret nl = Ret (inr s) -> tstop s = tstop st.
Proof.
  unfold pre_step. intros E. destruct (_ && _); [apply ret_inj in E; discriminate E|].
  apply bind_ret_inv in E. destruct E as (l & _ & E). cbv beta zeta in E.
  apply bind_ret_inv in E. destruct E as (r & Er & E). cbv beta in E.
  assert (Q : forall s1, r = inr s1 -> tstop s1 = tstop st).
  { intros s1 ->. destruct (0 <? _)%nat; [|apply ret_inj in Er; injection Er as <-; reflexivity].
    apply bind_ret_inv in Er. destruct Er as (p0 & _ & Er). cbv beta zeta in Er. destruct (existsb _ _).
    - apply bind_ret_inv in Er. destruct Er as ((? & ?) & _ & Er). cbv beta zeta in Er. apply ret_inj in Er. discriminate Er.
    - apply ret_inj in Er; injection Er as <-; reflexivity. }
  destruct r as [a|s1]; [apply ret_inj in E; discriminate E|]. specialize (Q _ eq_refl).
  apply bind_ret_inv in E. destruct E as (p0 & _ & E). cbv beta zeta in E. destruct (_ <? _)%sc.
  - apply bind_ret_inv in E. destruct E as (s2 & _ & E). cbv beta zeta in E. apply ret_inj in E. discriminate E.
  - apply ret_inj in E. injection E as <-. exact Q.
Qed.

Lemma step_tstop fuel (st st' : state) r : ordok st -> step scalarR fuel st = Ret (st', r) -> tstop st' = tstop st.
Proof.
  intros Ho E. pose proof (step_spec scalarR Hl _ _ _ _ Ho E) as Hs.
  destruct (stepped_ord scalarR _ _ _ Ho Hs) as (_ & _ & O1 & _). unfold outer in O1. congruence.
Qed.

(** What one call does up to the outcome of its step. *)
Definition begun (st sh s1 : state) : Prop :=
  head scalarR ewtR 1 OneStep st sh /\ pre_step scalarR ewtR sh 0 0 = Ret (inr s1) /\
  nst sh = nst st /\ cfg sh = cfg st /\ nls sh = nls st /\ netf sh = netf st /\
  (untouched st -> 0 < h1 -> hh sh = first_h /\ tn (nlp sh) = 0 /\ tstop sh = ts /\ hmax_inv sh = 0 /\
     vget (row (phi sh) 0) 0 = 0 /\ vget (row (phi sh) 1) 0 = hh sh) /\
  pieces scalarR ewtR st s1 /\ limited s1 /\ fresh scalarR ewtR s1 /\
  nls s1 = nls st /\ nst s1 = nst st /\ suppressalg s1 = false /\ ewt (nlp s1) = ewtR (row (phi s1) 0) /\
  (nst st <> 0%nat -> phi s1 = phi st /\ hh s1 = hh st /\ hused s1 = hused st).

Lemma call_step (st : state) : reached st -> untouched st \/ ts = None /\ nst st <> 0%nat /\ tretlast st = tn (nlp st) ->
  exists st' t r sh s1 s2 x, solve scalarR ewtR 600 100 st 1 0 OneStep = Ret (st', t, r) /\ begun st sh s1 /\
    step scalarR 100 s1 = Ret (s2, x) /\
    match x with
    | Ok _ => post_step scalarR 100 s2 1 0 OneStep = Ret (st', t, r) /\ r <> Ok ContinueSteps
    | Err e => step_failed scalarR s2 0 e = Ret (st', t, r)
    end.
Proof.
  intros Hr Hg.
  destruct (C47_solve_returns scalarR ewtR Hl (script_setup_total s0) (fun s x => script_solve_total scalarR s0 s x)
    configR [0] [1] st 600 100 1 0 OneStep configR_ok Hr) as [(st' & t & r & E)|(C & _)]; [cbn; lia|cbn; lia| |cbn in C; lia].
  assert (Hr' : reached st') by (eapply reach_next; eassumption).
  pose proof (reach_ord scalarR ewtR Hl configR [0] [1] st configR_ok Hr) as Ho.
  pose proof (reach_tlink scalarR ewtR Hl configR configR_ok [0] [1] st Hr) as Lk.
  assert (Hcf : forall x : state, cfg x = cfg st -> mxstep x = 500%nat /\ suppressalg x = false /\ nrtfn x = 0%nat /\ hin x = h1 /\ hmax_inv x = 0).
  { intros x Ex. pose proof (cfg_is_ext scalarR configR _ _ Ex (tl_cfg _ _ _ _ Lk)) as Q. unfold cfg_is in Q. cbn in Q. tauto. }
  pose proof (task_set_shell scalarR st 1 OneStep) as S0.
  pose proof (shell_cfg scalarR _ _ S0) as Cf0.
  assert (Hun : untouched st -> tn (nlp st) = 0 /\ tstop st = ts /\ nst st = 0%nat /\ setup_done st = false).
  { intros (x & Ex & ->). pose proof (new_fields _ _ _ _ Ex) as Nf.
    split; [reflexivity|]. split; [reflexivity|]. split; [tauto|].
    clear -Ex. unfold ida_new in Ex. minv. reflexivity. }
  destruct (solve_run _ _ _ _ _ _ _ _ _ _ _ E) as [A|(sh & s & nl & m & En & Lo & F)].
  - exfalso. unfold answers in A.
    destruct (solve_start_cases _ _ _ _ _ _ _ _ A) as [(Hz & s & m & X & Q)|[(Hz & s & l & E1 & E2 & E3 & E4 & Q)|(Hz & l & E1 & S1 & Q)]]; [|discriminate|].
    + rewrite (shell_nst _ _ _ S0) in Hz. destruct Hg as [Hg|(_ & Hg & _)]; [|congruence].
      destruct (Hun Hg) as (U1 & U2 & U3 & U4). destruct (Hcf _ Cf0) as (_ & _ & V3 & V4 & V5).
      destruct (first_call_accepted (task_set st 1 OneStep) _ U1 V4 V5 U2 V3 X) as (q & Eq & _). discriminate.
    + rewrite (shell_nst _ _ _ S0) in Hz. destruct Hg as [Hg|(Hg1 & Hg2 & Hg3)]; [destruct (Hun Hg); tauto|].
      set (sx := on_lp (fun _ => l) (task_set st 1 OneStep)) in *.
      assert (Nr : nrtfn sx = 0%nat) by (destruct (Hcf _ Cf0) as (_ & _ & V & _); exact V).
      destruct (later_call_cases _ _ _ _ _ _ _ Q) as [(Z & _)|[(Z & _)|[(Z & _)|(y & y' & t' & r' & Y1 & Y2 & Y3 & Y4 & X)]]]; try contradiction.
      rewrite (Y3 Nr) in *. clear Y1 Y2 Y3 y.
      assert (Tsx : tstop sx = None).
      { destruct (tl_tstop _ _ _ _ Lk) as [K|K]; [|exact K]. cbn in K. rewrite Hg1 in K. exact K. }
      assert (Tr : tretlast sx = tn (nlp sx)) by exact Hg3.
      clearbody sx. unfold stop_test1 in Y4. rewrite Tsx, Tr in Y4.
      replace (szero <? (tn (nlp sx) - tn (nlp sx)) * hh sx)%sc with false in Y4
        by (symmetry; change (Rltb 0 ((tn (nlp sx) - tn (nlp sx)) * hh sx) = false); apply Rltb_false; lra).
      cbn in Y4. injection Y4 as <- <- <-. discriminate X.
  - pose proof (run_head _ _ _ _ _ _ _ _ _ _ En Lo) as Hd.
    pose proof (enters_head _ _ _ _ _ _ _ _ En) as Hd0.
    pose proof (start_nst _ _ _ _ _ _ _ _ En) as (Hn0 & Hc0).
    destruct (head_loop _ _ _ _ _ _ _ _ _ _ Hd0 Lo) as (_ & Hnl).
    assert (nl = 0%nat) by (destruct (Nat.eq_dec nl 0) as [|Z]; [assumption|exfalso; discriminate (Hnl Z)]). subst nl.
    assert (s = sh) by (inversion Lo; [reflexivity|lia]). subst s.
    pose proof (pieces_ord _ _ Hl _ _ Ho (hd_pieces _ _ _ _ _ _ Hd)) as Osh.
    destruct (Hcf _ Hc0) as (V1 & V2 & V3 & _).
    assert (Hrow : length (row (phi sh) 0) = 1%nat /\ (nst sh = 0%nat -> ewt (nlp sh) = ewtR (row (phi sh) 0)) /\ nls sh = nls st /\ netf sh = netf st /\
      (nst sh = 0%nat -> ewt (nlp sh) = ewtR (row (phi sh) 0)) /\
      (nst st <> 0%nat -> phi sh = phi st /\ hh sh = hh st /\ hused sh = hused st) /\
      (untouched st -> 0 < h1 -> hh sh = first_h /\ tn (nlp sh) = 0 /\ tstop sh = ts /\ hmax_inv sh = 0 /\
         vget (row (phi sh) 0) 0 = 0 /\ vget (row (phi sh) 1) 0 = hh sh)).
    { pose proof (reached_row _ Hr) as Rw. unfold rows1 in Rw. unfold enters in En.
      destruct (solve_start_cases _ _ _ _ _ _ _ _ En) as [(Hz & s & m' & X & Q)|[(Hz & s & l & E1 & E2 & E3 & E4 & Q)|(Hz & l & E1 & S1 & Q)]]; [discriminate| |].
      - injection Q as ->. pose proof (first_call_frame _ _ _ _ _ E1) as Fr. cbv zeta iota in Fr.
        destruct Fr as (Fk & _ & Fe & _ & Fp & _). 
        rewrite (shell_nst _ _ _ S0) in Hz. destruct Hg as [Hg|(_ & Hg & _)]; [|congruence]. destruct (Hun Hg) as (U1 & U2 & _ & U4).
        change (setup_done (task_set st 1 OneStep)) with (setup_done st) in Fe. rewrite U4 in Fe.
        change (phi (task_set st 1 OneStep)) with (phi st) in Fe, Fp.
        destruct Ho as ((L6 & _) & _). specialize (Fp ltac:(lia)).
        change (phi (on_lp (fun _ => l) s)) with (phi s). change (ewt (nlp (on_lp (fun _ => l) s))) with (ewt (nlp s)).
        assert (R0 : row (phi s) 0 = row (phi st) 0). { rewrite Fp. unfold row. apply nth_upd_neq. lia. }
        rewrite R0. split; [exact Rw|]. split; [intros _; exact Fe|].
        change (nls (on_lp (fun _ => l) s)) with (nls s). change (netf (on_lp (fun _ => l) s)) with (netf s).
        unfold fkeep in Fk. split; [change (nls st) with (nls (task_set st 1 OneStep)); congruence|].
        split; [change (netf st) with (netf (task_set st 1 OneStep)); congruence|].
        split; [intros _; exact Fe|]. split; [intros C; congruence|].
        intros _ Hp. destruct (Hcf _ Cf0) as (_ & _ & W3 & W4 & W5).
        destruct (first_call_accepted (task_set st 1 OneStep) _ U1 W4 W5 U2 W3 E1) as (q & Eq & Hq). injection Eq as <-.
        destruct (first_keep _ _ _ E1) as (K1 & K2 & K3).
        split; [exact (Hq Hp)|]. split; [exact (eq_trans K1 U1)|]. split; [exact (eq_trans K2 U2)|]. split; [exact (eq_trans K3 W5)|].
        destruct Hg as (x & Ex & Hx). pose proof (new_fields scalarR [0] [1] x Ex) as Nf.
        assert (Px : phi st = [0] :: [1] :: repeat (vzero 1) 4) by (rewrite Hx; change (phi x = [0] :: [1] :: repeat (vzero 1) 4); tauto).
        change (hh (on_lp (fun _ => l) s)) with (hh s). split; [rewrite Px; reflexivity|].
        rewrite Fp, Px. change (vget (vscale 1 (hh s) [1]) 0 = hh s). rewrite vget_vscale by lia. cbn. ring.
      - assert (Sh : shell scalarR st sh \/ exists y, shell scalarR st y /\ lims y sh).
        { destruct (later_call_cases _ _ _ _ _ _ _ Q) as [(Z & _)|[(Z & _)|[(Z & _)|(y & y' & t' & r' & Y1 & Y2 & Y3 & Y4 & X)]]];
            try (exfalso; apply Z; destruct (Hcf _ Cf0) as (_ & _ & V & _); exact V).
          assert (Hr2 : r' = Ok ContinueSteps) by (destruct r' as [[]|]; cbn in X; congruence). subst r'. injection X as <- <-.
          apply stop_test1_shell in Y4.
          destruct Y4 as [(_ & L & _)|(Y4 & _)]; [|congruence]. right. exists y. split; [|exact L].
          eapply shell_trans; [exact S0|]. eapply shell_trans; eassumption. }
        assert (Hhs : hh sh = hh st).
        { set (sx := on_lp (fun _ => l) (task_set st 1 OneStep)) in *.
          assert (Nr : nrtfn sx = 0%nat) by (destruct (Hcf _ Cf0) as (_ & _ & V & _); exact V).
          destruct (later_call_cases _ _ _ _ _ _ _ Q) as [(Z & _)|[(Z & _)|[(Z & _)|(y & y' & t' & r' & Y1 & Y2 & Y3 & Y4 & X)]]]; try contradiction.
          assert (Hr2 : r' = Ok ContinueSteps) by (destruct r' as [[]|]; cbn in X; congruence). subst r'. injection X as <- <-.
          rewrite (Y3 Nr) in *. clear Y1 Y2 Y3 y.
          destruct Hg as [Hg|(Hg1 & Hg2 & Hg3)]; [destruct (Hun Hg) as (_ & _ & Hg' & _); exfalso; exact (Hz Hg')|].
          assert (Tsx : tstop sx = None).
          { destruct (tl_tstop _ _ _ _ Lk) as [K|K]; [|exact K]. cbn in K. rewrite Hg1 in K. exact K. }
          assert (Tr : tretlast sx = tn (nlp sx)) by exact Hg3. change (hh st) with (hh sx).
          clearbody sx. unfold stop_test1 in Y4. rewrite Tsx, Tr in Y4.
          replace (szero <? (tn (nlp sx) - tn (nlp sx)) * hh sx)%sc with false in Y4
            by (symmetry; change (Rltb 0 ((tn (nlp sx) - tn (nlp sx)) * hh sx) = false); apply Rltb_false; lra).
          cbn in Y4. injection Y4 as <-. reflexivity. }
        assert (K : phi sh = phi st /\ nls sh = nls st /\ netf sh = netf st /\ hused sh = hused st).
        { destruct Sh as [Sh|(y & Sh & L)].
          - pose proof (sh_core _ _ _ Sh) as C1. unfold core in C1. pinj. auto.
          - destruct (lims_fields _ _ L) as (h & ->). pose proof (sh_core _ _ _ Sh) as C1. unfold core in C1. pinj. auto. }
        destruct K as (-> & K2 & K3 & K4). split; [exact Rw|]. split; [|split; [exact K2|split; [exact K3|split; [|split; [auto|]]]]].
        + intros Z. exfalso. apply Hz. rewrite (shell_nst _ _ _ S0), <- Hn0. exact Z.
        + intros Z. exfalso. apply Hz. rewrite (shell_nst _ _ _ S0), <- Hn0. exact Z.
        + intros Hu. exfalso. apply Hz. rewrite (shell_nst _ _ _ S0). apply Hun. exact Hu. }
    destruct Hrow as (Rw & Hw & Hnls & Hnetf & Hw0 & Hlat & Hsz).
    destruct F as [st' t r Ep|s1 s2 e st' t r Ep Es Ef|s1 s2 u st' t r Ep Es Ef Hr2].
    + exfalso. destruct (no_tmw _ _ _ V1 V2 Rw Hw Ep) as (q & Eq). discriminate.
    + assert (B : begun st sh s1).
      { pose proof (pre_step_shell _ _ _ _ _ _ Ep) as (S1 & _). pose proof (sh_core _ _ _ S1) as Cc. pose proof (core_fields _ _ Cc) as Cc'.
        assert (C1 : nls s1 = nls sh /\ netf s1 = netf sh /\ nst s1 = nst sh) by (pose proof (sh_core _ _ _ S1) as C1; unfold core in C1; pinj; auto).
        destruct C1 as (C1 & C1' & C1''). pose proof Hd as [Pd Ld Fd _].
        assert (Cp : phi s1 = phi sh /\ hh s1 = hh sh /\ hused s1 = hused sh) by tauto. destruct Cp as (Cp & Cq & Cr).
        pose proof (shell_cfg _ _ _ S1) as Cs.
        split; [exact Hd|]. split; [exact Ep|]. split; [exact Hn0|]. split; [exact Hc0|]. split; [exact Hnls|]. split; [exact Hnetf|]. split; [exact Hsz|].
        split; [exact (pieces_shell _ _ _ _ _ Pd S1)|]. split; [exact (shell_limited _ _ _ S1 Ld)|].
        split; [exact (shell_fresh _ _ _ _ S1 Fd)|]. split; [congruence|]. split; [congruence|].
        split; [apply (Hcf s1); congruence|]. split; [|rewrite Cp, Cq, Cr; exact Hlat]. rewrite Cp.
        destruct (pre_step_cases _ _ _ _ _ _ Ep) as [(_ & Q)|(_ & [(_ & _ & q & _ & _ & Q)|(_ & [(_ & q & _ & _ & _ & Q)|(_ & q & _ & Q' & Q)])])]; try discriminate.
        injection Q as <-. rewrite Q'. unfold next_w. destruct (Nat.eqb_spec (nst sh) 0) as [Z|Z]; [exact (Hw0 Z)|reflexivity]. }
      exists st', t, r, sh, s1, s2, (Err e). auto 6.
    + assert (B : begun st sh s1).
      { pose proof (pre_step_shell _ _ _ _ _ _ Ep) as (S1 & _). pose proof (sh_core _ _ _ S1) as Cc. pose proof (core_fields _ _ Cc) as Cc'.
        assert (C1 : nls s1 = nls sh /\ netf s1 = netf sh /\ nst s1 = nst sh) by (pose proof (sh_core _ _ _ S1) as C1; unfold core in C1; pinj; auto).
        destruct C1 as (C1 & C1' & C1''). pose proof Hd as [Pd Ld Fd _].
        assert (Cp : phi s1 = phi sh /\ hh s1 = hh sh /\ hused s1 = hused sh) by tauto. destruct Cp as (Cp & Cq & Cr).
        pose proof (shell_cfg _ _ _ S1) as Cs.
        split; [exact Hd|]. split; [exact Ep|]. split; [exact Hn0|]. split; [exact Hc0|]. split; [exact Hnls|]. split; [exact Hnetf|]. split; [exact Hsz|].
        split; [exact (pieces_shell _ _ _ _ _ Pd S1)|]. split; [exact (shell_limited _ _ _ S1 Ld)|].
        split; [exact (shell_fresh _ _ _ _ S1 Fd)|]. split; [congruence|]. split; [congruence|].
        split; [apply (Hcf s1); congruence|]. split; [|rewrite Cp, Cq, Cr; exact Hlat]. rewrite Cp.
        destruct (pre_step_cases _ _ _ _ _ _ Ep) as [(_ & Q)|(_ & [(_ & _ & q & _ & _ & Q)|(_ & [(_ & q & _ & _ & _ & Q)|(_ & q & _ & Q' & Q)])])]; try discriminate.
        injection Q as <-. rewrite Q'. unfold next_w. destruct (Nat.eqb_spec (nst sh) 0) as [Z|Z]; [exact (Hw0 Z)|reflexivity]. }
      exists st', t, r, sh, s1, s2, (Ok u). auto 7.
Qed.

Lemma one_call (st : state) : ready st ->
  exists st' t r, solve scalarR ewtR 600 100 st 1 0 OneStep = Ret (st', t, Ok r) /\ (r = Success \/ r = TStop) /\
    reached st' /\ nst st' = S (nst st) /\ nls st' = tl (nls st) /\ (netf st' = netf st \/ netf st' = netf st + 1)%nat /\
    tretlast st' = t /\ (r = Success -> t = tn (nlp st')) /\
    (untouched st -> zhead s0 -> 0 < h1 -> tn (nlp st') = first_h /\ (r = Success -> tstop st' = ts) /\
       exists h', Rabs h' <= 2 * Rabs first_h /\
         (r = TStop <-> exists x, ts = Some x /\ Rabs (first_h - x) <= 100 * eps * (Rabs first_h + Rabs h'))) /\
    (exists fl s1 s2, pieces scalarR ewtR st s1 /\ limited s1 /\ fresh scalarR ewtR s1 /\ step scalarR fl s1 = Ret (s2, Ok tt) /\
       nls s1 = nls st /\ nst s1 = nst st /\ suppressalg s1 = false /\ ewt (nlp s1) = ewtR (row (phi s1) 0) /\
       (nst st <> 0%nat -> phi s1 = phi st /\ hh s1 = hh st /\ hused s1 = hused st) /\
       (exists evs, tr st' = evs ++ tr s2 /\ Forall (fun e => is_root e || is_warn e = true)%bool evs) /\
       (ts = None -> phi st' = phi s2 /\ hh st' = hh s2 /\ netf st' = netf s2)) /\
    (untouched st -> zhead s0 -> 0 < h1 -> ts = None ->
       vget (row (phi st') 0) 0 = h1 /\ next_h 0 h1 (hh st') /\ hused st' = h1).
Proof.
  intros (Hr & Hs & Hg).
  destruct (call_step st Hr Hg) as (st' & t & r & sh & s1 & s2 & x & E & Bg & Es & Hx).
  destruct Bg as (Hd & Ep & Hn0 & Hc0 & Hnls & Hnetf & Hsz & Bp & Bl & Bf & Bn & Bt & Bs & Bw & Blat).
  exists st', t.
  assert (Hr' : reached st') by (eapply reach_next; eassumption).
  pose proof (reach_ord scalarR ewtR Hl configR [0] [1] st configR_ok Hr) as Ho.
  pose proof (reach_tlink scalarR ewtR Hl configR configR_ok [0] [1] st Hr) as Lk.
  assert (Hcf : forall x : state, cfg x = cfg st -> mxstep x = 500%nat /\ suppressalg x = false /\ nrtfn x = 0%nat /\ hin x = h1 /\ hmax_inv x = 0).
  { intros x' Ex. pose proof (cfg_is_ext scalarR configR _ _ Ex (tl_cfg _ _ _ _ Lk)) as Q. unfold cfg_is in Q. cbn in Q. tauto. }
  pose proof (pieces_ord _ _ Hl _ _ Ho (hd_pieces _ _ _ _ _ _ Hd)) as Osh.
  assert (Hun : untouched st -> nst st = 0%nat).
  { intros (x' & Ex & ->). pose proof (new_fields _ _ _ _ Ex) as Nf. tauto. }
  destruct x as [u|e].
  2:{ exfalso. pose proof (pre_step_shell _ _ _ _ _ _ Ep) as (S1 & _).
      destruct (script_step _ _ _ _ (shell_ord _ _ _ S1 Osh) ltac:(rewrite Bn; exact Hs) Es) as (Q & _). discriminate. }
  destruct Hx as (Ef & Hr2).
    pose proof (pre_step_shell _ _ _ _ _ _ Ep) as (S1 & _).
      assert (C1 : nls s1 = nls sh /\ netf s1 = netf sh /\ nst s1 = nst sh) by (pose proof (sh_core _ _ _ S1) as C1; unfold core in C1; pinj; auto).
      destruct C1 as (C1 & C1' & C1'').
      pose proof (shell_ord _ _ _ S1 Osh) as O1.
      destruct (script_step _ _ _ _ O1 ltac:(rewrite C1, Hnls; exact Hs) Es) as (_ & Q1 & Q2 & Q5).
      assert (Hexp : exists fl s1 s2', pieces scalarR ewtR st s1 /\ limited s1 /\ fresh scalarR ewtR s1 /\ step scalarR fl s1 = Ret (s2', Ok tt) /\
         nls s1 = nls st /\ nst s1 = nst st /\ suppressalg s1 = false /\ ewt (nlp s1) = ewtR (row (phi s1) 0) /\
         (nst st <> 0%nat -> phi s1 = phi st /\ hh s1 = hh st /\ hused s1 = hused st) /\ s2' = s2).
      { destruct u. eexists _, s1, s2. repeat (split; [eassumption|]). reflexivity. }
      assert (Hfin : untouched st -> zhead s0 -> 0 < h1 ->
        tn (nlp s2) = first_h /\ Rabs (hh s2) <= 2 * Rabs first_h /\ tstop s2 = ts /\
        (ts = None -> vget (row (phi s2) 0) 0 = h1 /\ next_h 0 h1 (hh s2) /\ hused s2 = h1)).
      { intros Hu Hz Hp. destruct (Hsz Hu Hp) as (Z1 & Z2 & Z3 & Z4 & Z5 & Z6). pose proof (Hun Hu) as Un.
        destruct Hu as (x & Ex & Hx). destruct new_exists as (x' & Ex' & Hx' & _). rewrite Ex in Ex'. injection Ex' as <-.
        assert (Nz : zhead (nls s1)) by (rewrite C1, Hnls, Hx; change (zhead (nls x)); rewrite Hx'; exact Hz).
        destruct (Q5 Nz) as (Y1 & Y2 & Y3 & Y5).
        pose proof (sh_core _ _ _ S1) as Cc. pose proof (core_fields _ _ Cc) as Cc'.
        assert (Y0 : hh s1 = first_h /\ tn (nlp s1) = 0) by (split; [rewrite <- Z1|rewrite <- Z2]; tauto).
        assert (Ys : tstop s1 = ts) by (rewrite <- Z3; exact (pre_tstop _ _ _ _ Ep)).
        assert (Ym : hmax_inv s1 = 0) by (rewrite <- Z4; pose proof (shell_cfg _ _ _ S1) as Cs; unfold cfg in Cs; congruence).
        destruct Y0 as (Y0 & Yt). rewrite Y0, Ym in Y3.
        assert (Pf : 0 < first_h).
        { unfold first_h. destruct ts as [y|] eqn:Ets; [|exact Hp]. specialize (Hts y eq_refl). pose proof eps_pos. destruct (Rltb _ _); nra. }
        destruct (next_h_R 0 first_h (hh s2) ltac:(lra) ltac:(rewrite Rmult_0_r; lra) Y3) as (_ & _ & _ & Y4).
        split; [|split; [|split]].
        - rewrite Y2. destruct (init_fields s1) as (I1 & _). unfold tn_next.
          assert (I : tstop (st_init s1) = tstop s1 /\ tn (nlp (st_init s1)) = tn (nlp s1) /\ hh (st_init s1) = hh s1)
            by (unfold st_init; cbv zeta; destruct (_ =? _)%nat; auto).
          destruct I as (-> & -> & ->). rewrite Ys, Yt, Y0. cbn. unfold first_h in *.
          destruct ts as [y|] eqn:Ets; [|ring]. specialize (Hts y eq_refl). pose proof eps_pos as (P1 & P2).
          match goal with |- (if Rltb 1 ?e then _ else _) = _ => replace (Rltb 1 e) with false end; [ring|symmetry; apply Rltb_false].
          destruct (Rltb 0 ((0 + h1 - y) * h1)) eqn:Eq.
          + assert (0 < y * eps) by nra. assert (0 < y * (1 - 4 * eps)) by nra. nra.
          + apply Rltb_false in Eq. lra.
        - destruct Y4 as [-> |[(_ & ->)|[(Bad & _)|(q & Hq & ->)]]]; [pose proof (Rabs_pos first_h); lra| | |].
          + rewrite Rabs_mult, (Rabs_right 2); lra.
          + rewrite Rmult_0_r in Bad. lra.
          + rewrite Rabs_mult, (Rabs_right q) by lra. pose proof (Rabs_pos first_h). nra.
        - rewrite (step_tstop _ _ _ _ O1 Es). exact Ys.
        - intros Htn. assert (Fh : first_h = h1) by (unfold first_h; rewrite Htn; reflexivity). rewrite <- Fh.
          split; [|split; [exact Y3|congruence]]. rewrite Y5 by (try congruence; lra).
          assert (Cp : phi s1 = phi sh /\ hh s1 = hh sh) by tauto. destruct Cp as (Cp & Cq). rewrite Cp, Z5, Z6, Z1. ring. }
      destruct (step_nst scalarR Hl _ _ _ _ O1 Es) as (Q3 & Q4).
      pose proof (shell_cfg _ _ _ S1) as Cs1.
      assert (Nr2 : nrtfn s2 = 0%nat) by (apply Hcf; congruence).
      apply post_step_cases in Ef. destruct Ef as [(Z & _)|(x & X1 & X2 & X3 & X4)]; [contradiction|].
      rewrite (X3 Nr2) in *. clear X1 X2 X3 x.
      unfold stop_test2 in X4. apply bind_ret_inv in X4. destruct X4 as (y & Ey & X4). cbv beta in X4.
      assert (Hst : untouched st -> zhead s0 -> 0 < h1 ->
        exists h', Rabs h' <= 2 * Rabs first_h /\
         ((exists z, y = inl z) <-> exists x, ts = Some x /\ Rabs (first_h - x) <= 100 * eps * (Rabs first_h + Rabs h'))).
      { intros Hu Hz Hp. destruct (Hfin Hu Hz Hp) as (A1 & A2 & A3 & _). exists (hh s2). split; [exact A2|].
        unfold stop2_tstop in Ey. rewrite A3 in Ey. destruct ts as [x|].
        - unfold at_tstop in Ey. cbn in Ey. rewrite A1 in Ey. change (/ 4503599627370496) with eps in Ey.
          destruct (Rleb _ _) eqn:El.
          + apply Rleb_true in El. minv. split; eauto.
          + apply Rleb_false in El. minv. split; [intros (z & Ez); discriminate|intros (x' & Ex & Hx'); injection Ex as <-; lra].
        - injection Ey as <-. split; [intros (z & Ez); discriminate|intros (x' & Ex & _); discriminate]. }
      pose proof (stop2_tstop_cases _ _ _ Ey) as Cy.
      destruct y as [((y & ty) & ry)|y].
      * destruct Cy as (-> & ts' & g & r' & T1 & -> & T2 & T3 & ->). injection X4 as <- <- <-.
        exists TStop. split; [exact E|]. split; [auto|]. split; [exact Hr'|].
        pose proof (get_solution_shell _ _ _ _ _ T3) as Sg. pose proof (sh_core _ _ _ Sg) as Cg. unfold core in Cg.
        change (nst (set_tstop None (set_tretlast ts' g))) with (nst g). change (nls (set_tstop None (set_tretlast ts' g))) with (nls g).
        change (netf (set_tstop None (set_tretlast ts' g))) with (netf g).
        assert (G : nst g = nst s2 /\ nls g = nls s2 /\ netf g = netf s2) by (pinj; auto). destruct G as (-> & -> & ->).
        split; [cbn iota in Q3; lia|]. split; [congruence|]. split; [lia|]. split; [reflexivity|]. split; [discriminate|].
        assert (Hne : ts <> None).
        { intros Z. assert (K : tstop s2 = None) by (rewrite (step_tstop _ _ _ _ O1 Es), (pre_tstop _ _ _ _ Ep);
            pose proof (pieces_tlink scalarR ewtR Hl configR st sh configR_ok Ho Lk (hd_pieces _ _ _ _ _ _ Hd)) as Lsh;
            destruct (tl_tstop _ _ _ _ Lsh) as [K|K]; [cbn in K; rewrite Z in K; exact K|exact K]). congruence. }
        split; [|split; [destruct Hexp as (fl & x1 & x2 & B1 & B2 & B3 & B4 & B5 & B6 & B7 & B8 & B9 & B10); subst x2;
          exists fl, x1, s2; repeat (split; [assumption|]); split; [destruct (sh_trace _ _ _ Sg) as (evs & G1 & G2 & _); exists evs; auto|intros Z; contradiction]|intros _ _ _ Z; contradiction]].
        intros Hu Hz Hp. destruct (Hfin Hu Hz Hp) as (A1 & _). destruct (Hst Hu Hz Hp) as (h' & B1 & B2).
        split; [exact (eq_trans (proj1 (gs_tn _ _ _ _ _ T3)) A1)|]. split; [discriminate|]. exists h'. split; [exact B1|].
        rewrite <- B2. split; [eauto|reflexivity].
      * destruct (lims_fields _ _ Cy) as (h & ->). injection X4 as <- <- <-.
        exists Success. split; [exact E|]. split; [auto|]. split; [exact Hr'|].
        split; [cbn iota in Q3; change (nst s2 = S (nst st)); lia|]. split; [change (nls (set_tretlast (tn (nlp s2)) (set_hh h s2))) with (nls s2); congruence|]. split; [change (netf s2 = netf st \/ netf s2 = (netf st + 1)%nat); lia|].
        split; [reflexivity|]. split; [reflexivity|].
        assert (Hsame : ts = None -> h = hh s2).
        { intros Z. assert (K : tstop s2 = None) by (rewrite (step_tstop _ _ _ _ O1 Es), (pre_tstop _ _ _ _ Ep);
            pose proof (pieces_tlink scalarR ewtR Hl configR st sh configR_ok Ho Lk (hd_pieces _ _ _ _ _ _ Hd)) as Lsh;
            destruct (tl_tstop _ _ _ _ Lsh) as [K|K]; [cbn in K; rewrite Z in K; exact K|exact K]).
          unfold stop2_tstop in Ey. rewrite K in Ey. injection Ey as Ey. 
          change h with (hh (set_hh h s2)). rewrite <- Ey. reflexivity. }
        split; [|split; [destruct Hexp as (fl & x1 & x2 & B1 & B2 & B3 & B4 & B5 & B6 & B7 & B8 & B9 & B10); subst x2;
          exists fl, x1, s2; repeat (split; [assumption|]); split; [exists []; auto|]; intros Z; split; [reflexivity|split; [exact (Hsame Z)|reflexivity]]|
          intros Hu Hz Hp Z; destruct (Hfin Hu Hz Hp) as (_ & _ & _ & A4); destruct (A4 Z) as (A5 & A6 & A7); split; [exact A5|
            split; [change (next_h 0 h1 h); rewrite (Hsame Z); exact A6|exact A7]]]].
        intros Hu Hz Hp. destruct (Hfin Hu Hz Hp) as (A1 & _ & A3 & _). destruct (Hst Hu Hz Hp) as (h' & B1 & B2).
        split; [exact A1|]. split; [intros _; exact A3|]. exists h'. split; [exact B1|].
        rewrite <- B2. split; [discriminate|intros (z & Ez); discriminate].
Qed.

Lemma new_ready : usable s0 -> exists st : state, ready st /\ untouched st /\ nst st = 0%nat.
Proof.
  intros Hs. destruct new_exists as (st0 & E & Hn & _). exists (configure configR st0).
  assert (U : untouched (configure configR st0)) by (exists st0; auto).
  split; [|split; [exact U|]].
  - split; [constructor; exact E|]. split; [change (nls (configure configR st0)) with (nls st0); rewrite Hn; exact Hs|auto].
  - pose proof (new_fields _ _ _ _ E). tauto.
Qed.

(** Lives of any number of steps. *)
Lemma lives m : short s0 -> ts = None -> exists st : state, ready st /\ nst st = m.
Proof.
  intros Hs Hn. cut (exists st : state, ready st /\ nst st = m /\ short (nls st)); [intros (st & A & B & _); eauto|].
  induction m as [|m (st & Hr & <- & Hsh)].
  - destruct (new_ready (short_usable _ Hs)) as (st & A & U & B). exists st. split; [exact A|]. split; [exact B|].
    destruct U as (x & Ex & ->). destruct new_exists as (x' & Ex' & Hx' & _). rewrite Ex in Ex'. injection Ex' as <-.
    change (short (nls x)). rewrite Hx'. exact Hs.
  - destruct (one_call st Hr) as (st' & t & r & E & Hsr & Hr' & Hnst & Hnls & _ & Ht & Hts' & _).
    exists st'. split; [|split; [exact Hnst|rewrite Hnls; apply short_tl, Hsh]].
    split; [exact Hr'|]. split; [rewrite Hnls; apply short_usable, short_tl, Hsh|]. right. split; [exact Hn|]. split; [lia|].
    destruct Hsr as [-> | ->]; [rewrite Ht; apply Hts'; reflexivity|].
    exfalso. eapply (C68_no_stop_time scalarR ewtR Hl configR [0] [1]); [exact configR_ok|exact Hn|apply Hr|exact E|reflexivity].
Qed.

(** A first step for a given size. *)
Lemma one_step : short s0 -> exists (st0 st' : state) t r, ida_new scalarR [0] [1] = Ret st0 /\
  solve scalarR ewtR 600 100 (configure configR st0) 1 0 OneStep = Ret (st', t, Ok r) /\ (r = Success \/ r = TStop) /\
  reached st' /\ nst st' = 1%nat /\ tretlast st' = t /\
  (zhead s0 -> 0 < h1 -> tn (nlp st') = first_h /\ (r = Success -> tstop st' = ts) /\
     exists h', Rabs h' <= 2 * Rabs first_h /\
       (r = TStop <-> exists x, ts = Some x /\ Rabs (first_h - x) <= 100 * eps * (Rabs first_h + Rabs h'))).
Proof.
  intros Hs. destruct new_exists as (st0 & E & Hn & _). 
  assert (U : untouched (configure configR st0)) by (exists st0; auto).
  assert (Rd : ready (configure configR st0)).
  { split; [constructor; exact E|]. split; [change (nls (configure configR st0)) with (nls st0); rewrite Hn; apply short_usable; exact Hs|auto]. }
  destruct (one_call _ Rd) as (st' & t & r & E' & Hsr & Hr' & Hnst & _ & _ & Ht & _ & Q & _).
  exists st0, st', t, r. split; [exact E|]. split; [exact E'|]. split; [exact Hsr|]. split; [exact Hr'|].
  split; [|split; [exact Ht|]].
  - rewrite Hnst. pose proof (new_fields _ _ _ _ E) as Nf. assert (Z : nst st0 = 0%nat) by tauto.
    change (nst (configure configR st0)) with (nst st0). congruence.
  - intros A B. exact (Q U A B).
Qed.

(** The first attempt in a trace. *)
Lemma first_try_of (trc : list (event R)) : existsb is_try trc = true ->
  exists new t h k past, trc = new ++ CTry t h k :: past /\ existsb is_try past = false.
Proof.
  induction trc as [|e trc IH]; [discriminate|]. intros E. destruct (existsb is_try trc) eqn:Et.
  - destruct (IH eq_refl) as (new & t & h & k & past & -> & Hp). exists (e :: new), t, h, k, past. auto.
  - cbn [existsb] in E. rewrite Et, orb_false_r in E. destruct e; try discriminate. exists [], t, h, k, trc. auto.
Qed.

Lemma steps_try (trc : list (event R)) : steps trc <> [] -> existsb is_try trc = true.
Proof.
  assert (L : forall l x, @last_try R l = Some x -> existsb is_try l = true).
  { induction l as [|e l IH]; [discriminate|]. intros x. destruct e; cbn; auto; intros E; exact (IH _ E). }
  induction trc as [|e trc IH]; [cbn; congruence|]. destruct e; cbn; auto; intros Hs.
  destruct (last_try trc) as [((a & b) & d)|] eqn:El; [exact (L _ _ El)|auto].
Qed.

Lemma steps_nst (st : state) : reached st -> length (steps (tr st)) = nst st.
Proof. intros Hr. exact (tl_n _ _ _ _ (reach_tlink scalarR ewtR Hl configR configR_ok [0] [1] st Hr)). Qed.

End Life.
