(** * IdaTrace: the life of an integrator object as seen in its ghost trace,
      for every scalar *)
Require Import List Arith Bool Lia.
Import ListNotations.
Require Import Verif.Base Verif.Scalar Verif.Norms Verif.Newton Verif.NewtonSpec Verif.IdaState
  Verif.IdaNls Verif.IdaCore Verif.IdaRoots Verif.IdaSolve Verif.BaseFacts Verif.NewtonFacts
  Verif.IdaFacts Verif.IdaLoops Verif.IdaStep Verif.IdaSpec Verif.IdaShell Verif.IdaReach Verif.IdaInv
  Verif.IdaCount Verif.IdaLife.

(** Events that are not part of the life of a step. *)
Definition calm {T} (e : event T) : bool := negb (is_begin e || is_try e || is_fail e || is_step e).

Lemma calm_app {T} (evs tr : list (event T)) : Forall (fun e => calm e = true) evs ->
  last_try (evs ++ tr) = last_try tr /\ fails_now (evs ++ tr) = fails_now tr /\
  steps (evs ++ tr) = steps tr /\ tries_since (evs ++ tr) = tries_since tr.
Proof.
  induction 1 as [|e evs He _ (I1 & I2 & I3 & I4)]; [auto|].
  destruct e; cbn in *; try discriminate; auto.
Qed.

Section Trace.
Context {T LSt NSt : Type} `{Scalar T} `{LSolver T LSt} `{NLSolver T NSt}.
Variable prob : problem T.
Variable ewt_set : list T -> list T.
Hypothesis Hl : @nls_lawful T NSt _.
Variable c : @config T.
Hypothesis Hc : config_ok c.
Notation n := (model_size prob).
Notation nr := (num_roots prob).
Notation state := (ida T LSt NSt).
Notation tr st := (trace (lp (nlp st))).

(** The time reached by the accepted steps. *)
Definition now (past : list (event T)) : T :=
  match steps past with a :: _ => a_t a | [] => g_t0 c end.

(** The new time belonging to the latest attempt. *)
Definition new_time (past : list (event T)) (t : T) : Prop :=
  exists h k, last_try past = Some (now past, h, k) /\ (t = (now past + h)%sc \/ g_tstop c = Some t).

(** The factor applied to the step size after the [f]-th failure of a step. *)
Definition factor (f : nat) (r : T) : Prop :=
  (f = 1 -> exists q, r = smax squarter (smin spt9 q)) /\ (2 <= f -> r = squarter).

Record legal_try (t h : T) (k : nat) (past : list (event T)) : Prop := mklegal_try {
  lt_k : 1 <= k <= g_maxord c;
  lt_t : t = now past;
  lt_first : steps past = [] -> k = 1;
  lt_up : forall a rest, steps past = a :: rest -> k <= a_k a + 1;
  lt_low : forall a rest, steps past = a :: rest -> tries_since past = 0 -> a_k a <= k + 1;
  lt_raise : forall a rest, steps past = a :: rest -> k = a_k a + 1 ->
    length (steps past) = k \/ exists b rest', rest = b :: rest' /\ a_k a <> a_k b + 1;
  lt_retry : 0 < fails_now past ->
    exists h0 k0 r, last_try past = Some (t, h0, k0) /\ h = (h0 * r)%sc /\ k <= k0 /\
      (fails_now past <= 2 -> k0 <= k + 1) /\ (3 <= fails_now past -> k = 1) /\
      factor (fails_now past) r }.

Definition legal (e : event T) (past : list (event T)) : Prop :=
  match e with
  | CTry t h k => legal_try t h k past
  | CFail => fails_now past < Nat.max (g_maxnef c) 3
  | CStep t _ => new_time past t
  | CRes t _ _ => new_time past t
  | CJac t _ _ _ => t = szero
  | _ => True
  end.

Definition cfg_is (st : state) : Prop :=
  maxord st = g_maxord c /\ maxnef st = g_maxnef c /\ mxstep st = g_mxstep c /\ hmax_inv st = g_hmax_inv c /\
  hin st = g_hin c /\ epcon st = g_epcon c /\ suppressalg st = g_suppressalg c /\ idv st = g_idv c /\
  rootdir st = g_rootdir c /\ maxncf st = g_maxncf c /\ nrtfn st = nr /\ constraints_set st = false /\
  nni st = 0.

Lemma cfg_is_ext (a b : state) : cfg b = cfg a -> cfg_is a -> cfg_is b.
Proof. intros E. apply cfg_fields in E. unfold cfg_is. intuition congruence. Qed.

Record tlink (o : option (T * nat)) (st : state) : Prop := mktlink {
  tl_cfg : cfg_is st;
  tl_tstop : tstop st = g_tstop c \/ tstop st = None;
  tl_every : every legal (tr st);
  tl_tn : tn (nlp st) = now (tr st);
  tl_n : length (steps (tr st)) = nst st;
  tl_used : forall a rest, steps (tr st) = a :: rest -> kused st = a_k a /\ hused st = a_h a;
  tl_up : forall a rest, steps (tr st) = a :: rest -> kk st = kused st + 1 ->
    nst st = kk st \/ exists b rest', rest = b :: rest' /\ a_k a <> a_k b + 1;
  tl_phase : phase st = 0 -> nst st <> 0 -> kk st = nst st;
  tl_low : nst st <> 0 -> tries_since (tr st) = 0 -> kused st <= kk st + 1;
  tl_in : match o with
    | None => True
    | Some (t0, nef) => t0 = tn (nlp st) /\ fails_now (tr st) = nef /\
        nef < Nat.max (g_maxnef c) 3 /\
        (0 < nef -> exists h0 k0 r, last_try (tr st) = Some (t0, h0, k0) /\ hh st = (h0 * r)%sc /\
           kk st <= k0 /\ (nef <= 2 -> k0 <= kk st + 1) /\ (3 <= nef -> kk st = 1) /\ factor nef r)
    end }.

(** Changes outside a step. *)
Lemma tlink_quiet (a b : state) evs : tlink None a ->
  cfg b = cfg a -> tstop b = tstop a \/ tstop b = None -> tr b = evs ++ tr a ->
  Forall (fun e => is_root e || is_warn e = true) evs ->
  tn (nlp b) = tn (nlp a) -> nst b = nst a ->
  (nst a <> 0 -> kused b = kused a /\ hused b = hused a /\ kk b = kk a /\ phase b = phase a) ->
  tlink None b.
Proof.
  intros [L1 L2 L3 L4 L5 L6 L7 L8 L9 L10] C1 C2 C3 C4 C5 C6 C7.
  assert (Cq : Forall (fun e => calm e = true) evs).
  { eapply Forall_impl; [|exact C4]. intros e; destruct e; cbn; congruence. }
  destruct (calm_app evs (tr a) Cq) as (A1 & A2 & A3 & A4).
  assert (Hs : forall x rest, steps (tr a) = x :: rest -> nst a <> 0).
  { intros x rest E. rewrite E in L5. cbn in L5. lia. }
  constructor; rewrite ?C3, ?A3, ?A4, ?C5, ?C6.
  - exact (cfg_is_ext _ _ C1 L1).
  - destruct C2 as [->| ->]; auto.
  - apply every_app; [|exact L3]. intros e q Hi. eapply Forall_forall in C4; [|exact Hi].
    destruct e; cbn in *; auto; discriminate.
  - unfold now. rewrite A3. exact L4.
  - exact L5.
  - intros x rest E. destruct (C7 (Hs _ _ E)) as (-> & -> & _). exact (L6 _ _ E).
  - intros x rest E. destruct (C7 (Hs _ _ E)) as (-> & _ & -> & _). exact (L7 _ _ E).
  - intros Hp Hz. destruct (C7 Hz) as (_ & _ & E1 & E2). rewrite E1. apply L8; congruence.
  - intros Hz. destruct (C7 Hz) as (-> & _ & -> & _). auto.
  - exact I.
Qed.

Lemma tlink_new yy0 yp0 : i_new prob tlink c yy0 yp0.
Proof.
  intros st E. pose proof (new_fields prob _ _ _ E) as F.
  destruct F as (F1 & F2 & F3 & F4 & F5 & F6 & F7 & F8 & F9 & F10 & F11 & F12 & F13 & F14 & F15 & _).
  assert (Et : tr (configure c st) = []) by exact F10.
  unfold ida_new in E. destruct (_ && _); [|discriminate]. injection E as <-.
  constructor; rewrite ?Et.
  - unfold cfg_is, configure. cbn. repeat split.
  - left. reflexivity.
  - apply every_nil.
  - reflexivity.
  - reflexivity.
  - intros a rest X; discriminate.
  - intros a rest X; discriminate.
  - intros _ Hz. exfalso. apply Hz. reflexivity.
  - intros Hz. exfalso. apply Hz. reflexivity.
  - exact I.
Qed.

Lemma tlink_shell : i_shell prob tlink.
Proof.
  intros a b Ho L S. destruct (sh_trace _ _ _ S) as (evs & T1 & T2 & _).
  pose proof (sh_core _ _ _ S) as C. assert (Ccfg : cfg b = cfg a).
  { exact (f_equal (fun x => fst (fst (fst (fst (fst (fst (fst x))))))) C). }
  unfold core in C. cbv zeta in C. injection C. intros.
  apply (tlink_quiet a b evs L); auto. apply (sh_tstop _ _ _ S).
Qed.

Lemma tlink_lims : i_lims tlink.
Proof.
  intros a b Ho L Hz S. apply lims_fields in S. destruct S as (h & ->).
  apply (tlink_quiet a _ [] L); auto. 
Qed.

Lemma tlink_first : i_first prob ewt_set tlink.
Proof.
  intros a tout x Ho L Hz E. apply first_call_frame in E. cbv zeta in E. destruct E as (F1 & _ & _ & _ & F2).
  set (b := match x with inl (s, _) => s | inr s => s end) in *.
  assert (Ccfg : cfg b = cfg a) by (apply fkeep_fields in F1; tauto).
  assert (Ht : exists evs, tr b = evs ++ tr a /\ Forall (fun e => is_root e || is_warn e = true) evs).
  { destruct x as [(s & m)|s]; subst b.
    - destruct F2 as (_ & _ & _ & F2 & _). exists []. rewrite F2. auto.
    - destruct F2 as (_ & _ & _ & _ & _ & _ & evs & F3 & F4 & _). exists evs. split; [exact F3|].
      eapply Forall_impl; [|exact F4]. cbn. intros e ->. reflexivity. }
  destruct Ht as (evs & T1 & T2). apply fkeep_fields in F1.
  apply (tlink_quiet a b evs L); intuition congruence.
Qed.

(** One attempt. *)
Lemma quiet_calm (evs : list (event T)) : quiet_evs evs -> Forall (fun e => calm e = true) evs.
Proof. apply Forall_impl. intros e. destruct e; cbn; congruence. Qed.

Lemma tlink_try (st st1 : state) t0 nef ck r :
  instep st -> tlink (Some (t0, nef)) st -> tried prob st st1 ck r -> attempted prob st st1 r ->
  exists evs, tr st1 = fails r ++ evs ++ CTry (tn (nlp st)) (hh st) (kk st) :: tr st /\
    Forall (fun e => calm e = true) evs /\ quiet_evs evs /\ Forall (call_in prob st st1) evs /\
    every legal (tr st1) /\
    t0 = now (tr st) /\ (tn_next st = (now (tr st) + hh st)%sc \/ g_tstop c = Some (tn_next st)).
Proof.
  intros Hi [L1 L2 L3 L4 L5 L6 L7 L8 L9 L10] Htr (evs & A1 & A2 & _).
  destruct L10 as (L10 & L11 & L12 & L13).
  assert (Q : quiet_evs evs) by exact (call_in_callback prob ewt_set _ _ _ A2). pose proof (quiet_calm _ Q) as Qc.
  assert (Hn : tn_next st = (now (tr st) + hh st)%sc \/ g_tstop c = Some (tn_next st)).
  { unfold tn_next. rewrite L4. destruct (tstop st) as [ts|] eqn:Ets; [|auto].
    destruct (_ <? _)%sc; [|auto]. right. destruct L2 as [L2|L2]; congruence. }
  exists evs. split; [exact A1|]. split; [exact Qc|]. split; [exact Q|]. split; [exact A2|].
  split; [|split; [congruence|exact Hn]].
  assert (Hkm : 1 <= kk st <= g_maxord c).
  { pose proof (is_kk _ Hi). destruct L1 as (L1 & _). rewrite <- L1. assumption. }
  assert (Hk0 : steps (tr st) = [] -> kk st = 1).
  { intros E. rewrite E in L5. cbn in L5. apply (is_zero _ Hi). auto. }
  assert (Ht : every legal (CTry (tn (nlp st)) (hh st) (kk st) :: tr st)).
  { apply every_cons; [|exact L3]. constructor.
    - exact Hkm.
    - exact L4.
    - exact Hk0.
    - intros a rest E. destruct (L6 _ _ E) as (E1 & _). rewrite <- E1.
      apply (is_pos _ Hi). rewrite <- L5, E. discriminate.
    - intros a rest E Hts. destruct (L6 _ _ E) as (E1 & _). rewrite <- E1. apply L9; [|exact Hts].
      rewrite <- L5, E. discriminate.
    - intros a rest E Hr. rewrite L5. destruct (L6 _ _ E) as (E1 & _). rewrite <- E1 in Hr.
      exact (L7 _ _ E Hr).
    - intros Hf. rewrite L11 in *. destruct (L13 Hf) as (h0 & k0 & q & B1 & B2 & B3 & B4 & B5 & B6).
      exists h0, k0, q. rewrite <- L10. auto 10. }
  assert (He : every legal (evs ++ CTry (tn (nlp st)) (hh st) (kk st) :: tr st)).
  { clear A1. revert A2 Qc. clear Q. induction evs as [|e evs IH]; intros A2 Qc; [exact Ht|].
    inversion A2 as [|? ? A3 A4]; subst. inversion Qc as [|? ? Q3 Q4]; subst. cbn.
    apply every_cons; [|exact (IH A4 Q4)]. destruct (calm_app evs (CTry (tn (nlp st)) (hh st) (kk st) :: tr st) Q4)
      as (S1 & S2 & S3 & S4).
    destruct e; cbn in A3 |- *; try contradiction.
    - destruct A3 as (-> & _). exists (hh st), (kk st). unfold now. rewrite S1, S3. cbn.
      rewrite L4. auto.
    - apply A3. }
  rewrite A1. unfold fails. destruct r as [u|[[]| |]]; try exact He. cbn [app]. apply every_cons; [|exact He].
  cbn. destruct (calm_app evs (CTry (tn (nlp st)) (hh st) (kk st) :: tr st) Qc) as (_ & S2 & _).
  rewrite S2. cbn. rewrite L11. exact L12.
Qed.

Lemma tlink_begin : i_begin prob ewt_set tlink.
Proof.
  intros st Ho [L1 L2 L3 L4 L5 L6 L7 L8 L9 L10] Hlim Hfr.
  destruct (init_fields st) as (F1 & F2 & F3 & F4 & F5 & F6 & F7 & F8 & F9 & F10 & F11 & F12 & F13 & F14 &
    F15 & F16 & F17 & F18 & F19 & _).
  assert (Hz : nst st <> 0 -> kk (st_init st) = kk st /\ kused (st_init st) = kused st /\
     hused (st_init st) = hused st /\ phase (st_init st) = phase st).
  { intros Hz. unfold st_init. cbv zeta. change (nst (on_lp (push_ev (begin_ev st)) st)) with (nst st).
    destruct (Nat.eqb_spec (nst st) 0); [lia|]. repeat split. }
  assert (Hts : tstop (st_init st) = tstop st).
  { unfold st_init. cbv zeta. destruct (nst _ =? 0); reflexivity. }
  assert (Hs : forall x rest, steps (tr st) = x :: rest -> nst st <> 0).
  { intros x rest E. rewrite E in L5. cbn in L5. lia. }
  constructor; rewrite ?F19, ?F8, ?F14.
  - exact (cfg_is_ext _ _ F1 L1).
  - rewrite Hts. exact L2.
  - apply every_cons; [exact I|exact L3].
  - exact L4.
  - exact L5.
  - intros a rest E. destruct (Hz (Hs _ _ E)) as (_ & -> & -> & _). exact (L6 _ _ E).
  - intros a rest E. destruct (Hz (Hs _ _ E)) as (-> & -> & _). exact (L7 _ _ E).
  - intros Hp Hnz. destruct (Hz Hnz) as (E1 & _ & _ & E2). rewrite E1. apply L8; congruence.
  - intros Hnz. destruct (Hz Hnz) as (E1 & E2 & _). rewrite E1, E2. exact (L9 Hnz).
  - split; [reflexivity|]. split; [reflexivity|]. split; lia.
Qed.

Lemma tlink_retry : i_retry prob tlink.
Proof.
  intros st t0 nef st1 ck ek ek1 st' Hi L Et Htr Hat Hn Hrt.
  destruct (tlink_try _ _ _ _ _ _ Hi L Htr Hat) as (evs & A1 & Ac & _ & _ & A3 & A4 & _).
  destruct (calm_app evs (CTry (tn (nlp st)) (hh st) (kk st) :: tr st) Ac) as (S1 & S2 & S3 & S4).
  destruct L as [L1 L2 L3 L4 L5 L6 L7 L8 L9 (L10 & L11 & L12 & L13)].
  pose proof (rt_nlp _ _ _ _ _ Hrt) as R1. pose proof (rt_keep _ _ _ _ _ Hrt) as R3.
  pose proof (tr_cnt _ _ _ _ _ Htr) as R4. pose proof (tr_ord _ _ _ _ _ Htr) as R5.
  pose proof (tr_h _ _ _ _ _ Htr) as R6. pose proof (rt_kk _ _ _ _ _ Hrt) as R7.
  pose proof (tr_res _ _ _ _ _ Htr) as (Hkn & _). pose proof (is_kk _ Hi) as Hk1.
  pose proof (rt_hh _ _ _ _ _ Hrt) as R8. pose proof (rt_rr0 _ _ _ _ _ Hrt) as R9.
  pose proof (rt_rr1 _ _ _ _ _ Hrt) as R10. pose proof (rt_phase _ _ _ _ _ Hrt) as R11.
  assert (Hcf : cfg st' = cfg st) by (rewrite (rt_cfg _ _ _ _ _ Hrt); apply Htr).
  assert (Hout : outer st' = outer st) by (rewrite (rt_outer _ _ _ _ _ Hrt); apply Htr).
  apply outer_fields in Hout.
  pinj. assert (Ht : tr st' = CFail :: evs ++ CTry (tn (nlp st)) (hh st) (kk st) :: tr st).
  { rewrite R1. cbn [lp set_tn trace]. exact A1. }
  assert (Hs : steps (tr st') = steps (tr st)) by (rewrite Ht; cbn; exact S3).
  assert (Hkk : kk st' <= kk st /\ (nef <= 1 -> kk st <= kk st' + 1) /\ (2 <= nef -> kk st' = 1)).
  { rewrite R7. destruct (Nat.leb_spec nef 1); lia. }
  assert (Hku : kused st' = kused st) by congruence.
  assert (Hnst : nst st' = nst st) by congruence.
  assert (Hcm : maxnef st = g_maxnef c) by apply L1.
  constructor.
  - exact (cfg_is_ext _ _ Hcf L1).
  - replace (tstop st') with (tstop st) by (symmetry; tauto). exact L2.
  - rewrite R1. exact A3.
  - unfold now. rewrite Hs, R1. cbn. exact A4.
  - rewrite Hs. congruence.
  - intros a rest E. rewrite Hs in E. destruct (L6 _ _ E). split; congruence.
  - intros a rest E Hup. rewrite Hs in E. rewrite Hnst. rewrite Hku in Hup.
    assert (Hp : kk st <= kused st + 1).
    { apply (is_pos _ Hi). rewrite <- L5, E. discriminate. }
    assert (Ekk : kk st' = kk st) by lia. rewrite Ekk. apply (L7 _ _ E). lia.
  - intros Hp. rewrite R11 in Hp. discriminate.
  - intros Hz Hts. rewrite Ht in Hts. cbn in Hts. rewrite S4 in Hts. cbn in Hts. discriminate.
  - split; [rewrite R1; reflexivity|]. split; [rewrite Ht; cbn; rewrite S2; cbn; lia|].
    split; [lia|]. intros _. exists (hh st), (kk st), (rr st').
    split; [rewrite Ht; cbn; rewrite S1; cbn; rewrite L10; reflexivity|].
    split; [rewrite R8; congruence|]. split; [lia|]. split; [lia|]. split; [lia|].
    split.
    + intros E1. apply R9. lia.
    + intros E1. apply R10. lia.
Qed.

Lemma tlink_commit : i_commit prob tlink.
Proof.
  intros st t0 nef st1 ck ek ek1 st2 Hi L Et Htr Hat Hcp.
  destruct (tlink_try _ _ _ _ _ _ Hi L Htr Hat) as (evs & A1 & Ac & _ & _ & A3 & A4 & A5).
  destruct (calm_app evs (CTry (tn (nlp st)) (hh st) (kk st) :: tr st) Ac) as (S1 & S2 & S3 & S4).
  destruct L as [L1 L2 L3 L4 L5 L6 L7 L8 L9 (L10 & L11 & L12 & L13)].
  pose proof (cp_used _ _ _ Hcp) as U1. pose proof (cp_nlp _ _ _ Hcp) as U2.
  pose proof (tr_cnt _ _ _ _ _ Htr) as R4. pose proof (tr_ord _ _ _ _ _ Htr) as R5.
  pose proof (tr_h _ _ _ _ _ Htr) as R6. pose proof (cp_kk _ _ _ Hcp) as U3.
  pose proof (cp_zero _ _ _ Hcp) as U4. pose proof (tr_tn _ _ _ _ _ Htr) as R7.
  pose proof (is_kk _ Hi) as Hk1. pose proof (is_zero _ Hi) as Hk2. pose proof (is_pos _ Hi) as Hk3.
  assert (Hcf : cfg st2 = cfg st) by (rewrite (cp_cfg _ _ _ Hcp); apply Htr).
  assert (Hout : outer st2 = outer st) by (rewrite (cp_outer _ _ _ Hcp); apply Htr).
  apply outer_fields in Hout. pinj.
  set (y := yy (nlp st2)) in *.
  assert (Ht : tr (st_commit prob ck st2) = CStep (tn_next st) y :: evs ++ CTry (tn (nlp st)) (hh st) (kk st) :: tr st).
  { unfold st_commit. cbn [nlp lp trace set_ee on_lp on_nlp set_nlp set_lp push_ev set_trace].
    rewrite U2, R7, A1. unfold y. rewrite U2. reflexivity. }
  cbn [fails app] in A1.
  assert (Hs : steps (tr (st_commit prob ck st2)) = mkastep (tn_next st) y (hh st) (kk st) :: steps (tr st)).
  { rewrite Ht. cbn. rewrite S1, S3. reflexivity. }
  constructor.
  - exact (cfg_is_ext _ _ Hcf L1).
  - change (tstop (st_commit prob ck st2)) with (tstop st2).
    replace (tstop st2) with (tstop st) by (symmetry; tauto). exact L2.
  - rewrite Ht. apply every_cons; [|rewrite <- A1; exact A3].
    exists (hh st), (kk st). unfold now. rewrite S1, S3. cbn. rewrite L4.
    split; [reflexivity|exact A5].
  - unfold now. rewrite Hs. cbn. rewrite U2. exact R7.
  - rewrite Hs. cbn. lia.
  - intros a rest E. rewrite Hs in E. injection E as <- <-. cbn. split; congruence.
  - intros a rest E Hup. rewrite Hs in E. injection E as <- <-. cbn in Hup |- *.
    destruct U3 as [U3|[U3|(U3 & U5 & U6)]]; [lia|lia|].
    destruct U6 as [(U6 & U7)|(U6 & U7)].
    + left. rewrite U5. assert (nst st <> 0) by lia. assert (kk st = nst st) by (apply L8; congruence || lia). lia.
    + right. destruct (steps (tr st)) as [|b rest'] eqn:Es.
      * cbn in L5. destruct Hk2 as (Q1 & Q2); [auto|]. lia.
      * exists b, rest'. split; [reflexivity|]. destruct (L6 _ _ eq_refl) as (Q1 & _). cbn. congruence.
  - intros Hp Hz. cbn in Hp, Hz |- *. destruct (U4 Hp) as (V1 & V2 & V3).
    destruct (Nat.eq_dec (nst st) 0) as [E0|E0].
    + destruct V2 as (V2 & _); [congruence|]. destruct Hk2 as (Q1 & Q2); [exact E0|]. lia.
    + destruct V3 as (V3 & _); [congruence|]. assert (kk st = nst st) by (apply L8; congruence). lia.
  - intros _ _. cbn. lia.
  - exact I.
Qed.

Lemma tlink_giveup : i_giveup prob tlink.
Proof.
  intros st t0 nef st1 ck ek ek1 st' e Hi L Et Htr Hat Hg He.
  destruct (tlink_try _ _ _ _ _ _ Hi L Htr Hat) as (evs & A1 & Ac & _ & _ & A3 & A4 & A5).
  destruct (calm_app evs (CTry (tn (nlp st)) (hh st) (kk st) :: tr st) Ac) as (S1 & S2 & S3 & S4).
  destruct L as [L1 L2 L3 L4 L5 L6 L7 L8 L9 (L10 & L11 & L12 & L13)].
  pose proof (gu_keep _ _ _ _ Hg) as U1. pose proof (gu_nlp _ _ _ _ Hg) as U2.
  pose proof (gu_phase _ _ _ _ Hg) as U3.
  pose proof (tr_cnt _ _ _ _ _ Htr) as R4. pose proof (tr_ord _ _ _ _ _ Htr) as R5.
  pose proof (tr_h _ _ _ _ _ Htr) as R6. 
  assert (Hcf : cfg st' = cfg st) by (rewrite (gu_cfg _ _ _ _ Hg); apply Htr).
  assert (Hout : outer st' = outer st) by (rewrite (gu_outer _ _ _ _ Hg); apply Htr).
  apply outer_fields in Hout. pinj.
  assert (Ht : tr st' = fails (Err e) ++ evs ++ CTry (tn (nlp st)) (hh st) (kk st) :: tr st).
  { rewrite U2. cbn [lp set_tn trace]. exact A1. }
  assert (Hs : steps (tr st') = steps (tr st) /\ tries_since (tr st') = S (tries_since (tr st))).
  { rewrite Ht. destruct He as [(-> & _)|((m & ->) & _)]; cbn; auto. }
  destruct Hs as (Hs & Hts).
  constructor.
  - exact (cfg_is_ext _ _ Hcf L1).
  - replace (tstop st') with (tstop st) by (symmetry; tauto). exact L2.
  - rewrite U2. exact A3.
  - unfold now. rewrite Hs, U2. cbn. exact A4.
  - rewrite Hs. congruence.
  - intros a rest E. rewrite Hs in E. destruct (L6 _ _ E). split; congruence.
  - intros a rest E Hup. rewrite Hs in E. replace (nst st') with (nst st) by congruence.
    replace (kk st') with (kk st) by congruence. apply (L7 _ _ E). congruence.
  - intros Hp. congruence.
  - intros Hz Hts'. rewrite Hts in Hts'. discriminate.
  - exact I.
Qed.

Lemma tlink_in : i_in prob ewt_set tlink.
Proof.
  split; [exact tlink_begin|]. split; [exact tlink_retry|]. split; [exact tlink_commit|exact tlink_giveup].
Qed.

Lemma reach_tlink yy0 yp0 (st : state) : reach prob ewt_set c yy0 yp0 st -> tlink None st.
Proof.
  apply (reach_life prob ewt_set Hl tlink c yy0 yp0 st Hc); 
    [apply tlink_new|apply tlink_shell|apply tlink_lims|apply tlink_first|apply tlink_in].
Qed.
End Trace.
