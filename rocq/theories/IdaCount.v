(** * IdaCount: the ghost trace against the statistics counters *)
Require Import List Arith Bool Lia.
Import ListNotations.
Require Import Verif.Base Verif.Scalar Verif.Norms Verif.Newton Verif.NewtonSpec Verif.IdaState
  Verif.IdaNls Verif.IdaCore Verif.IdaRoots Verif.IdaSolve Verif.BaseFacts Verif.NewtonFacts
  Verif.IdaFacts Verif.IdaLoops Verif.IdaStep Verif.IdaSpec Verif.IdaShell Verif.IdaReach Verif.IdaInv.

Section Count.
Context {T LSt NSt : Type} `{Scalar T} `{LSolver T LSt} `{NLSolver T NSt}.
Variable prob : problem T.
Variable ewt_set : list T -> list T.
Hypothesis Hl : @nls_lawful T NSt _.
Notation n := (model_size prob).
Notation nr := (num_roots prob).
Notation state := (ida T LSt NSt).

(** [st'] has the events [evs] more than [st], and the counters agree. *)
Definition ext (st st' : state) (evs : list (event T)) : Prop :=
  trace (lp (nlp st')) = evs ++ trace (lp (nlp st)) /\
  nre (nlp st') = nre (nlp st) + count is_res evs /\
  nje (lp (nlp st')) = nje (lp (nlp st)) + count is_jac evs /\
  (n <> 0 -> nsetups (nlp st') = nsetups (nlp st) + count is_jac evs) /\
  netf st' = netf st + count is_fail evs /\
  nst st' = nst st + count is_step evs /\
  ncfl (lp (nlp st)) <= ncfl (lp (nlp st')) /\ ncfn st <= ncfn st'.

Lemma ext_refl st : ext st st [].
Proof. unfold ext, count. cbn. repeat split; lia. Qed.

Lemma ext_trans a b c e1 e2 : ext a b e1 -> ext b c e2 -> ext a c (e2 ++ e1).
Proof.
  intros (A1 & A2 & A3 & A4 & A5 & A6 & A7 & A8) (B1 & B2 & B3 & B4 & B5 & B6 & B7 & B8).
  unfold ext. rewrite !count_app, B1, A1, app_assoc. split; [reflexivity|].
  split; [lia|]. split; [lia|]. split; [intros Hn; specialize (A4 Hn); specialize (B4 Hn); lia|]. lia.
Qed.

Lemma count_none {A} (p q : A -> bool) l :
  Forall (fun e => p e = true) l -> (forall e, p e = true -> q e = false) -> count q l = 0.
Proof.
  intros Hf Hq. unfold count. induction Hf as [|e l He Hf IH]; [reflexivity|].
  cbn. rewrite (Hq _ He). exact IH.
Qed.

Definition callback (e : event T) : bool := is_res e || is_jac e.

Lemma call_in_callback (st st' : state) evs :
  Forall (call_in prob st st') evs -> Forall (fun e => callback e = true) evs.
Proof. apply Forall_impl. intros e. destruct e; cbn; tauto. Qed.

(** Events of one internal step: in order, for every attempt one [CTry], its
    callbacks, and [CFail] if the error test failed; finally [CStep] if the
    step was accepted.  (The list has the latest event first.) *)
Definition quiet_evs (evs : list (event T)) : Prop := Forall (fun e => callback e = true) evs.

Lemma quiet_counts evs : quiet_evs evs ->
  count is_fail evs = 0 /\ count is_step evs = 0 /\ count is_root evs = 0 /\ count is_try evs = 0 /\
  count is_warn evs = 0.
Proof.
  intros Hq. repeat split; eapply count_none; try exact Hq; intros e; destruct e; cbn; congruence.
Qed.

Lemma attempted_ext (st st1 st' : state) r :
  attempted prob st st1 r -> lp (nlp st') = lp (nlp st1) -> nre (nlp st') = nre (nlp st1) ->
  nsetups (nlp st') = nsetups (nlp st1) -> netf st' = netf st + count is_fail (fails r) ->
  nst st' = nst st -> ncfn st <= ncfn st' ->
  exists evs, quiet_evs evs /\ Forall (call_in prob st st1) evs /\
    ext st st' (fails r ++ evs ++ [CTry (tn (nlp st)) (hh st) (kk st)]).
Proof.
  intros (evs & A1 & A2 & A3 & A4 & A5 & A6) E1 E2 E3 E4 E5 E6.
  pose proof (call_in_callback _ _ _ A2) as Hq. exists evs. split; [exact Hq|]. split; [exact A2|].
  destruct (quiet_counts _ Hq) as (Q1 & Q2 & Q3 & Q4 & Q5).
  assert (Hf : count is_res (fails r) = 0 /\ count is_jac (fails r) = 0 /\ count is_step (fails r) = 0).
  { destruct r as [|[[]| |]]; repeat split. }
  destruct Hf as (F1 & F2 & F3).
  unfold ext. rewrite E1, E2, E3, E4, E5, A1, A3, A4, !count_app, F1, F2, F3, Q1, Q2.
  change (count is_res [CTry (tn (nlp st)) (hh st) (kk st)]) with 0.
  change (count is_jac [CTry (tn (nlp st)) (hh st) (kk st)]) with 0.
  change (count is_fail [CTry (tn (nlp st)) (hh st) (kk st)]) with 0.
  change (count is_step [CTry (tn (nlp st)) (hh st) (kk st)]) with 0.
  split; [rewrite <- !app_assoc; reflexivity|]. split; [lia|]. split; [lia|].
  split; [intros Hn; rewrite A5 by exact Hn; lia|]. lia.
Qed.

(** Shape of the events of one step. *)
Inductive step_evs : list (event T) -> nat -> Prop :=
| se_0 : step_evs [] 0
| se_S evs f t h k cs : step_evs evs f -> quiet_evs cs -> step_evs (CFail :: cs ++ CTry t h k :: evs) (f + 1).

Lemma step_evs_counts evs f : step_evs evs f ->
  count is_fail evs = f /\ count is_step evs = 0 /\ count is_root evs = 0 /\ count is_try evs = f /\
  count is_warn evs = 0.
Proof.
  induction 1 as [|evs f t h k cs Hs (I1 & I2 & I3 & I4 & I5) Hq]; [repeat split|].
  destruct (quiet_counts _ Hq) as (Q1 & Q2 & Q3 & Q4 & Q5).
  change (CFail :: cs ++ CTry t h k :: evs) with ([CFail] ++ cs ++ [CTry t h k] ++ evs).
  rewrite !count_app, I1, I2, I3, I4, I5, Q1, Q2, Q3, Q4, Q5.
  unfold count. cbn. lia.
Qed.

Lemma tries_ext (st0 sta : state) nef :
  arrays st0 -> 1 <= kk st0 <= maxord st0 -> maxord st0 <= 5 ->
  forall t0, tries prob t0 st0 sta nef ->
  exists evs, ext st0 sta evs /\ step_evs evs nef /\ (nef = 0 \/ nef < maxnef st0 \/ nef <= 2).
Proof.
  intros Ha Hk Hm t0. induction 1 as [|st nef st1 ck ek ek1 st' Ht IH Et Htr Hn Hrt].
  { exists []. split; [apply ext_refl|]. split; [constructor|auto]. }
  destruct IH as (evs & I1 & I2 & I3).
  destruct (tries_ord prob _ _ _ _ Ha Hk Ht) as (B1 & B2 & B3 & _).
  assert (Hat : attempted prob st st1 (Err (EIda TestFail))).
  { eapply (try_step_calls prob Hl); [exact B1|lia|exact Et]. }
  pose proof (rt_nlp _ _ _ _ _ Hrt) as R1. pose proof (rt_netf _ _ _ _ _ Hrt) as R2.
  pose proof (rt_keep _ _ _ _ _ Hrt) as R3. pose proof (tr_cnt _ _ _ _ _ Htr) as R4. pinj.
  destruct (attempted_ext _ _ st' _ Hat) as (cs & Q1 & _ & Q2).
  { rewrite R1. reflexivity. }
  { rewrite R1. reflexivity. }
  { rewrite R1. reflexivity. }
  { cbn. lia. }
  { congruence. }
  { lia. }
  exists (CFail :: cs ++ CTry (tn (nlp st)) (hh st) (kk st) :: evs). split; [|split; [constructor; assumption|]].
  - pose proof (ext_trans _ _ _ _ _ I1 Q2) as Hx. cbn [fails app] in Hx.
    rewrite <- app_assoc in Hx. exact Hx.
  - apply cfg_fields in B3. destruct B3 as (_ & _ & _ & _ & _ & _ & Hmn & _). rewrite Hmn in Hn. lia.
Qed.

Lemma init_ext (st : state) : ext st (st_init st) [begin_ev st].
Proof.
  destruct (init_fields st) as (F1 & F2 & F3 & F4 & F5 & F6 & F7 & F8 & F9 & F10 & F11 & F12 & F13 & F14 &
    F15 & F16 & F17 & F18 & F19 & _).
  unfold ext. rewrite F8, F9, F10, F15, F16, F17, F18, F19. unfold count. cbn. repeat split; lia.
Qed.

Lemma stepped_ext (st st' : state) r :
  ordok st -> stepped prob st st' r ->
  exists evs cs t h k f, step_evs evs f /\ quiet_evs cs /\ (f = 0 \/ f < maxnef st \/ f <= 2) /\
    ext st st' ((match r with
                 | Ok _ => [CStep (tn (nlp st')) (yy (nlp st'))]
                 | Err EFmt => [CFail]
                 | Err _ => []
                 end) ++ cs ++ CTry t h k :: evs ++ [begin_ev st]).
Proof.
  intros Ho (sta & nef & st1 & ck & ek & ek1 & r1 & Ht & Et & Htr & Hc).
  destruct (tries_start prob _ _ _ Ho Ht) as (B1 & B2 & B3 & B4 & B5 & B6 & B7 & B8 & B9).
  pose proof (init_kk st Ho) as Hk.
  destruct (init_fields st) as (F1 & _ & _ & _ & _ & _ & _ & _ & _ & _ & F11 & _).
  assert (M0 : maxnef (st_init st) = maxnef st) by (apply cfg_fields in F1; tauto).
  assert (Hko : 1 <= kk (st_init st) <= maxord (st_init st)) by lia.
  destruct Ho as (Ha & Hm & _).
  destruct (tries_ext _ _ _ (arrays_init _ Ha) Hko ltac:(lia) _ Ht) as (evs & X1 & X2 & X3).
  rewrite M0 in X3.
  assert (Hat : attempted prob sta st1 r1).
  { eapply (try_step_calls prob Hl); [exact B1|lia|exact Et]. }
  pose proof (tr_cnt _ _ _ _ _ Htr) as T2.
  pose proof (ext_trans _ _ _ _ _ (init_ext st) X1) as X0.
  destruct Hc as [(-> & -> & st2 & Hcp & ->)|(e & -> & Hg & Hc)].
  - pose proof (cp_used _ _ _ Hcp) as U1. pose proof (cp_keep _ _ _ Hcp) as U2. pose proof (cp_nlp _ _ _ Hcp) as U3.
    pinj. destruct (attempted_ext _ _ st1 _ Hat) as (cs & Q1 & _ & Q2); auto; try (cbn; lia).
    exists evs, cs, (tn (nlp sta)), (hh sta), (kk sta), nef. split; [exact X2|]. split; [exact Q1|].
    split; [exact X3|].
    assert (Q3 : ext st1 (st_commit prob ck st2) [CStep (tn (nlp st2)) (yy (nlp st2))]).
    { unfold ext, count. cbn. rewrite U3. repeat split; lia. }
    pose proof (ext_trans _ _ _ _ _ X0 (ext_trans _ _ _ _ _ Q2 Q3)) as Hx.
    cbn [fails app] in Hx |- *. rewrite <- app_assoc in Hx. exact Hx.
  - pose proof (gu_keep _ _ _ _ Hg) as U1. pose proof (gu_nlp _ _ _ _ Hg) as U3. pinj.
    assert (Hnetf : netf st' = netf sta + count is_fail (fails (Err e)) /\ ncfn sta <= ncfn st').
    { destruct Hc as [(-> & _ & _ & _ & K1 & K2)|((m & ->) & _ & K1 & K2)]; cbn; lia. }
    destruct (attempted_ext _ _ st' _ Hat) as (cs & Q1 & _ & Q2);
      [rewrite U3; reflexivity|rewrite U3; reflexivity|rewrite U3; reflexivity|apply Hnetf|congruence|apply Hnetf|].
    exists evs, cs, (tn (nlp sta)), (hh sta), (kk sta), nef. split; [exact X2|]. split; [exact Q1|].
    split; [exact X3|].
    pose proof (ext_trans _ _ _ _ _ X0 Q2) as Hx.
    destruct Hc as [(-> & _ & _ & -> & K1 & K2)|((m & ->) & -> & K1 & K2)]; cbn [fails app] in Hx |- *;
      rewrite <- app_assoc in Hx; exact Hx.
Qed.

Lemma shell_ext (a b : state) : shell prob a b ->
  exists evs, ext a b evs /\ Forall (fun e => is_root e || is_warn e = true) evs /\
    nge b = nge a + count is_root evs.
Proof.
  intros S. destruct (sh_trace _ _ _ S) as (evs & T1 & T2 & T3). exists evs. split; [|auto].
  pose proof (sh_core _ _ _ S) as C. unfold core in C. cbv zeta in C. injection C. intros.
  unfold ext. rewrite T1.
  rewrite (count_none _ is_res _ T2) by (intros e; destruct e; cbn; congruence).
  rewrite (count_none _ is_jac _ T2) by (intros e; destruct e; cbn; congruence).
  rewrite (count_none _ is_fail _ T2) by (intros e; destruct e; cbn; congruence).
  rewrite (count_none _ is_step _ T2) by (intros e; destruct e; cbn; congruence).
  repeat split; lia.
Qed.

Lemma lims_ext (a b : state) : lims a b -> ext a b [].
Proof. intros L. apply lims_fields in L. destruct L as (h & ->). exact (ext_refl a). Qed.

Lemma first_ext (a : state) tout x :
  first_call prob ewt_set a tout = Ret x ->
  exists evs, ext a (match x with inl (s, _) => s | inr s => s end) evs /\
    Forall (fun e => is_root e = true) evs.
Proof.
  intros E. apply first_call_frame in E. cbv zeta in E. destruct E as (F1 & _ & _ & _ & F2).
  apply fkeep_fields in F1.
  destruct F1 as (_ & _ & _ & _ & _ & _ & N1 & N2 & N3 & _ & N4 & N5 & N6 & _ & _ & _ & _ & N7 & _).
  assert (Ht : exists evs, trace (lp (nlp (match x with inl (s, _) => s | inr s => s end))) = evs ++ trace (lp (nlp a)) /\
    Forall (fun e => is_root e = true) evs).
  { destruct x as [(s & m)|s].
    - destruct F2 as (_ & _ & _ & F2 & _). exists []. rewrite F2. auto.
    - destruct F2 as (_ & _ & _ & _ & _ & _ & evs & F3 & F4 & _). exists evs. auto. }
  destruct Ht as (evs & T1 & T2). exists evs. split; [|exact T2].
  unfold ext. rewrite T1, N1, N2, N3, N4, N5, N6, N7.
  rewrite (count_none _ is_res _ T2) by (intros e; destruct e; cbn; congruence).
  rewrite (count_none _ is_jac _ T2) by (intros e; destruct e; cbn; congruence).
  rewrite (count_none _ is_fail _ T2) by (intros e; destruct e; cbn; congruence).
  rewrite (count_none _ is_step _ T2) by (intros e; destruct e; cbn; congruence).
  repeat split; lia.
Qed.

Lemma piece_ext (a b : state) : ordok a -> piece prob ewt_set a b -> exists evs, ext a b evs.
Proof.
  intros Ho P. destruct P as [s s' S|s s' Hz L|s s' tout m Hn E|s s' tout Hn E|fuel s s' r L F E].
  - destruct (shell_ext _ _ S) as (evs & Hx & _). eauto.
  - exists []. exact (lims_ext _ _ L).
  - destruct (first_ext _ _ _ E) as (evs & Hx & _). eauto.
  - destruct (first_ext _ _ _ E) as (evs & Hx & _). eauto.
  - apply (step_spec prob Hl) in E; [|exact Ho]. destruct (stepped_ext _ _ _ Ho E) as (evs & cs & t & h & k & f & _ & _ & _ & Hx).
    eauto.
Qed.

Lemma pieces_ext (a b : state) : ordok a -> pieces prob ewt_set a b -> ordok b /\ exists evs, ext a b evs.
Proof.
  intros Ho P. induction P as [|b c Hbc P (IH1 & evs & IH2)].
  - split; [exact Ho|]. exists []. apply ext_refl.
  - split; [exact (piece_ord prob ewt_set Hl _ _ IH1 Hbc)|].
    destruct (piece_ext _ _ IH1 Hbc) as (e2 & Hx). exists (e2 ++ evs). exact (ext_trans _ _ _ _ _ IH2 Hx).
Qed.

(** The counters are the numbers of events. *)
Definition counted (st : state) : Prop :=
  let tr := trace (lp (nlp st)) in
  nst st = count is_step tr /\ nre (nlp st) = count is_res tr /\ nje (lp (nlp st)) = count is_jac tr /\
  (n <> 0 -> nsetups (nlp st) = count is_jac tr) /\ netf st = count is_fail tr.

Lemma reach_counted c yy0 yp0 (st : state) :
  config_ok c -> reach prob ewt_set c yy0 yp0 st -> counted st.
Proof.
  intros Hc Hr. destruct (reach_pieces prob ewt_set _ _ _ _ Hr) as (st0 & E & P).
  destruct (pieces_ext _ _ (new_ord prob c yy0 yp0 st0 Hc E) P) as (_ & evs & X1 & X2 & X3 & X4 & X5 & X6 & _).
  apply new_fields in E.
  destruct E as (_ & _ & _ & N1 & _ & _ & _ & _ & _ & N2 & N3 & N4 & N5 & N6 & _).
  cbn in X1, X2, X3, X4, X5, X6. rewrite N2, app_nil_r in X1.
  unfold counted. cbv zeta. rewrite X1, X2, X3, X5, X6, N1, N3, N4, N6.
  repeat split; try reflexivity. intros Hn. rewrite X4, N5 by exact Hn. reflexivity.
Qed.

End Count.
