(** * IdaHistLife: the step history over the life of an integrator object *)
Require Import List Arith Bool Lia Reals Lra Psatz.
Import ListNotations.
Require Import Verif.Base Verif.Scalar Verif.ScalarR Verif.Norms Verif.Newton Verif.NewtonSpec Verif.IdaState
  Verif.IdaNls Verif.IdaCore Verif.IdaRoots Verif.IdaSolve Verif.BaseFacts Verif.NewtonFacts
  Verif.IdaFacts Verif.IdaLoops Verif.IdaStep Verif.IdaSpec Verif.IdaShell Verif.IdaReach Verif.IdaInv
  Verif.IdaCount Verif.IdaLife Verif.IdaTrace Verif.IdaAccept Verif.IdaStepR Verif.RSum Verif.VecR Verif.PolyR
  Verif.HistSpec Verif.IdaHist.
Open Scope R_scope.

Section HistLife.
Context {LSt NSt : Type} `{LSolver R LSt} `{NLSolver R NSt}.
Variable prob : problem R.
Variable ewt_set : list R -> list R.
Hypothesis Hl : @nls_lawful R NSt _.
Variable c : @config R.
Hypothesis Hc : config_ok c.
Variables yy0 yp0 : list R.
Notation n := (model_size prob).
Notation state := (ida R LSt NSt).
Notation tr st := (trace (lp (nlp st))).
Notation bdf_ := (bdf_call n (g_t0 c) yy0).
Definition bdf (e : event R) (past : list (event R)) : Prop := bdf_ e past /\ const_raise e past.

(** The fields the history depends on. *)
Definition hkey (st : state) :=
  ((tn (nlp st), nst st, steps (tr st)), (psi st, phi st, maxord st),
   (kk st, kused st, hused st, ns st), (alpha st, beta st, sigma st, gamma st)).

Lemma hkey_fields (a b : state) : hkey a = hkey b ->
  tn (nlp a) = tn (nlp b) /\ nst a = nst b /\ steps (tr a) = steps (tr b) /\ psi a = psi b /\ phi a = phi b /\
  maxord a = maxord b /\ kk a = kk b /\ kused a = kused b /\ hused a = hused b /\ ns a = ns b /\
  alpha a = alpha b /\ beta a = beta b /\ sigma a = sigma b /\ gamma a = gamma b.
Proof. unfold hkey. intros E. pinj. auto 20. Qed.

Lemma hist_key hs (a b : state) : hkey b = hkey a ->
  (nst a <> 0%nat -> 0 < hh b * hh a /\ Rabs (hh b) <= Rabs (hh a)) -> nst a <> 0%nat \/ hh b = hh a ->
  hist prob hs a -> hist prob hs b.
Proof.
  intros E Eh Hor [H1 H2 H3 H4 H5 H6 H7 H8].
  apply hkey_fields in E. destruct E as (E1 & E2 & E3 & E4 & E5 & E6 & E7 & E8 & E9 & _).
  constructor; rewrite ?E1, ?E2, ?E3, ?E4, ?E5, ?E6, ?E7, ?E8, ?E9; try assumption.
  - intros i L. specialize (H2 i L). destruct Hor as [Hz| ->]; [|exact H2].
    destruct (Eh Hz) as (B3 & _).
    destruct (same_sign_cases _ _ B3) as [(?&?)|(?&?)], (same_sign_cases _ _ H2) as [(?&?)|(?&?)]; try lra; nra.
  - intros Hz. destruct (Eh Hz). specialize (H8 Hz). lra.
Qed.

Lemma const_key hs (a b : state) : hkey b = hkey a -> const hs a -> const hs b.
Proof.
  intros E (A1 & A2). apply hkey_fields in E. destruct E as (E1 & E2 & E3 & E4 & E5 & E6 & E7 & E8 & E9 & E10 & _).
  unfold const. rewrite E2, E9, E10. auto.
Qed.
Lemma full_key hs (a b : state) : hkey b = hkey a -> full hs a -> full hs b.
Proof.
  intros E A. apply hkey_fields in E.
  destruct E as (E1 & E2 & E3 & E4 & E5 & E6 & E7 & E8 & E9 & E10 & E11 & E12 & E13 & E14).
  unfold full. rewrite E4, E8, E9, E11, E12, E13, E14. exact A.
Qed.

Definition settled_h hs (st : state) : Prop := (ns st <= 1)%nat \/ const hs st /\ full hs st.
Definition dense_h hs (st : state) : Prop :=
  forall i, (i <= kused st)%nat -> vget (psi st) i = tm hs 0 - tm hs (S i).

Definition hpart (o : option (R * nat)) (st : state) (b0 b1 : R * list R) : Prop :=
  fst b0 = g_t0 c /\ (early_fail (tr st) = false -> snd b0 = yy0) /\
  let hs := map apt (steps (tr st)) ++ [b0; b1] in
  hist prob hs st /\
  match o with
  | None => settled_h hs st /\ (tries_since (tr st) = 0%nat -> dense_h hs st)
  | Some (_, nef) => nsok hs st /\ (nst st = 0%nat -> hused st = 0 /\ vget (psi st) 0 = hh st) /\
      (nst st <> 0%nat -> ((1 <= nef)%nat -> Rabs (hh st) <= 9 / 5 * Rabs (hused st)) /\
                      ((2 <= nef)%nat -> Rabs (hh st) <= 9 / 20 * Rabs (hused st)))
  end.

(** The order was raised in the start-up phase or after steps of one size. *)
Definition raised (st : state) : Prop :=
  nst st <> 0%nat -> kk st = (kused st + 1)%nat -> nst st = kk st \/
    (kk st + 1 <= nst st)%nat /\
    forall i b, (i <= kk st)%nat -> nth_error (steps (tr st)) i = Some b -> a_h b = hused st.

Lemma raised_ext (a b : state) : nst b = nst a -> kused b = kused a -> hused b = hused a ->
  steps (tr b) = steps (tr a) -> (kk b <= kk a)%nat -> (nst a <> 0%nat -> (kk a <= kused a + 1)%nat) -> raised a -> raised b.
Proof.
  unfold raised. intros -> -> -> -> K1 K2 R1 Hz Ek. specialize (K2 Hz). assert (Eb : kk b = kk a) by lia.
  rewrite Eb in *. exact (R1 Hz Ek).
Qed.

Definition hlink (o : option (R * nat)) (st : state) : Prop :=
  ncfn st = 0%nat ->
  every bdf (tr st) /\ raised st /\
  (nst st = 0%nat -> early_fail (tr st) = false -> row (phi st) 0 = yy0) /\
  (nst st <> 0%nat \/ o <> None -> exists b0 b1, hpart o st b0 b1).

Definition HJ o (st : state) : Prop := J prob c o st /\ hlink o st.

Lemma quiet_steps (evs : list (event R)) a : Forall (fun e => is_root e || is_warn e = true) evs ->
  steps (evs ++ a) = steps a /\ tries_since (evs ++ a) = tries_since a /\ early_fail (evs ++ a) = early_fail a /\
  (every bdf a -> every bdf (evs ++ a)).
Proof.
  intros C4.
  assert (Cq : Forall (fun e => calm e = true) evs).
  { eapply Forall_impl; [|exact C4]. intros e; destruct e; cbn; congruence. }
  destruct (calm_app evs a Cq) as (_ & _ & A3 & A4). split; [exact A3|]. split; [exact A4|]. split.
  - apply early_app. eapply Forall_impl; [|exact C4]. intros e; destruct e; cbn; congruence.
  - intros B. apply every_app; [|exact B]. intros e q Hi. eapply Forall_forall in C4; [|exact Hi].
    split; destruct e; cbn in *; auto; discriminate.
Qed.

Lemma HJ_new : i_new prob HJ c yy0 yp0.
Proof.
  intros st E. split; [exact (J_new prob c yy0 yp0 st E)|]. intros _.
  pose proof (new_fields prob _ _ _ E) as F.
  destruct F as (_ & _ & _ & F4 & _ & _ & _ & _ & _ & F10 & _ & _ & _ & _ & _ & F16 & _).
  assert (Et : tr (configure c st) = []) by exact F10. assert (En : nst (configure c st) = 0%nat) by exact F4.
  assert (Ep : phi (configure c st) = phi st) by reflexivity.
  rewrite Et, En, Ep, F16. split; [apply every_nil|]. split; [unfold raised; rewrite En; intros X; congruence|]. split; [reflexivity|].
  intros [X|X]; congruence.
Qed.

Lemma HJ_shell : i_shell prob HJ.
Proof.
  intros a b Ho (Ja & La) S. split; [exact (J_shell prob c a b Ho Ja S)|].
  destruct (sh_trace _ _ _ S) as (evs & T1 & T2 & _).
  pose proof (core_fields _ _ (sh_core _ _ _ S)) as D.
  destruct D as (Dc & D1 & D2 & D3 & D4 & D5 & D6 & D7 & D8 & D9 & D10 & D11 & D12 & D13 & D14 & D15 & D16 & D17 & D18 & _).
  apply cfg_fields in Dc. destruct Dc as (_ & _ & _ & _ & _ & _ & _ & Dm & _).
  destruct (quiet_steps evs (tr a) T2) as (Q1 & Q2 & Q3 & Q4).
  rewrite <- T1 in *.
  assert (K : hkey b = hkey a) by (unfold hkey; congruence).
  intros Hn. rewrite D16 in Hn. destruct (La Hn) as (A1 & Ar & A2 & A3).
  split; [exact (Q4 A1)|]. split.
  { unfold raised. rewrite D15, D7, D8, D13, Q1. exact Ar. }
  rewrite Q3, D1, D15. split; [exact A2|].
  intros [Hz|Hz]; [|congruence]. destruct (A3 (or_introl Hz)) as (b0 & b1 & B1 & B2 & B3 & B4 & B5).
  exists b0, b1. unfold hpart. rewrite Q1, Q2, Q3. split; [exact B1|]. split; [exact B2|].
  cbv zeta in *. split.
  { apply (hist_key _ a b K); [|right; exact D12|exact B3]. intros _. rewrite D12.
    destruct Ja as (_ & Ra). destruct (rl_h _ _ _ Ra (or_introl Hz)) as (Hh & _).
    pose proof (sq_pos _ Hh). split; lra. }
  split.
  - destruct B4 as [B4|(B4 & B4')]; [left; rewrite D11; exact B4|right].
    split; [exact (const_key _ _ _ K B4)|exact (full_key _ _ _ K B4')].
  - intros Hts. unfold dense_h. rewrite D8, D2. exact (B5 Hts).
Qed.

(** The reduction in front of a stop time. *)
Lemma lims_R (a b : state) : J prob c None a -> nst a <> 0%nat -> lims a b ->
  exists q, 0 < q <= 1 /\ b = set_hh (q * hh a) a.
Proof.
  intros (L & R) Hz S.
  destruct S as [(Ht & ->)|(ts & Ht & Hat & ->)].
  { exists 1. split; [lra|]. rewrite Rmult_1_l. destruct a; reflexivity. }
  destruct R as [R1 R2 R3 R4 R5 R6].
  assert (Hl' : limit_to_tstop a ts = set_hh (hh (limit_to_tstop a ts)) a).
  { unfold limit_to_tstop. destruct (_ <? _)%sc; [reflexivity|]. destruct a; reflexivity. }
  assert (Hh : hh (limit_to_tstop a ts) = if Rltb 0 ((tn (nlp a) + hh a - ts) * hh a)
     then (ts - tn (nlp a)) * (1 - 4 * eps) else hh a).
  { unfold limit_to_tstop. cbn [sltb szero smul sadd ssub sone sfour seps ScalarR].
    destruct (Rltb _ _); reflexivity. }
  rewrite Hl'. set (h := hh (limit_to_tstop a ts)) in *. clearbody h. clear Hl'.
  destruct (R2 (or_introl Hz)) as (R2a & R2b). destruct (R4 _ Ht (or_introl Hz)) as (R4a & _).
  assert (Hne : tn (nlp a) <> ts).
  { intros E. unfold at_tstop in Hat. cbn [sleb sabs ssub smul shundred seps sadd ScalarR] in Hat.
    rewrite E in Hat. apply Rleb_false in Hat. rewrite Rminus_diag_eq, Rabs_R0 in Hat by reflexivity.
    pose proof (Rabs_pos ts). pose proof (Rabs_pos (hh a)). nra. }
  destruct (limit_R _ _ _ _ R2a R4a Hne Hh) as (A1 & A2 & A3 & A4 & (q & A5 & A6) & A7).
  exists q. split; [exact A5|]. rewrite A6. reflexivity.
Qed.

Lemma HJ_lims : i_lims HJ.
Proof.
  intros a b Ho (Ja & La) Hz S. split; [exact (J_lims prob c a b Ho Ja Hz S)|].
  destruct (lims_R a b Ja Hz S) as (q & Hq & ->).
  assert (Hh : hh a <> 0) by (destruct Ja as (_ & Ra); apply (rl_h _ _ _ Ra (or_introl Hz))).
  intros Hn. destruct (La Hn) as (A1 & Ar & A2 & A3). split; [exact A1|]. split; [exact Ar|]. split; [exact A2|].
  intros _. destruct (A3 (or_introl Hz)) as (b0 & b1 & B1 & B2 & B3 & B4).
  exists b0, b1. split; [exact B1|]. split; [exact B2|]. split; [|exact B4].
  refine (hist_key _ a (set_hh (q * hh a) a) eq_refl _ (or_introl Hz) B3).
  intros _. cbn [hh set_hh]. pose proof (sq_pos _ Hh). split; [nra|].
  rewrite Rabs_mult, (Rabs_pos_eq q) by lra. pose proof (Rabs_pos (hh a)). nra.
Qed.

Lemma HJ_first : i_first prob ewt_set HJ.
Proof.
  intros a tout x Ho (Ja & La) Hz E. split; [exact (J_first prob ewt_set c a tout x Ho Ja Hz E)|].
  apply first_call_frame in E. cbv zeta in E. destruct E as (F1 & _ & _ & _ & F2).
  set (b := match x with inl (s, _) => s | inr s => s end) in *.
  assert (Ht : (exists evs, tr b = evs ++ tr a /\ Forall (fun e => is_root e || is_warn e = true) evs) /\
               row (phi b) 0 = row (phi a) 0).
  { destruct x as [(s & m)|s]; subst b.
    - destruct F2 as (F2' & _ & _ & F2 & _). split; [exists []; rewrite F2; auto|]. rewrite F2'. reflexivity.
    - destruct F2 as (F2' & _ & _ & _ & _ & _ & evs & F3 & F4 & _). split; [exists evs; split; [exact F3|]|].
      + eapply Forall_impl; [|exact F4]. cbn. intros e ->. reflexivity.
      + destruct Ho as ((Hp & _) & _). rewrite F2' by lia. unfold row. rewrite nth_upd_neq by lia. reflexivity. }
  destruct Ht as ((evs & T1 & T2) & Hr). apply fkeep_fields in F1.
  destruct (quiet_steps evs (tr a) T2) as (Q1 & Q2 & Q3 & Q4). rewrite <- T1 in *.
  intros Hn. assert (Hn' : ncfn a = 0%nat) by intuition congruence.
  assert (En : nst b = nst a) by tauto.
  destruct (La Hn') as (A1 & Ar & A2 & _). split; [exact (Q4 A1)|].
  split; [unfold raised; rewrite En; intros X; congruence|].
  rewrite Q3, Hr. split; [intros _; exact (A2 Hz)|]. rewrite En. intros [X|X]; congruence.
Qed.

(** The history of a state before its first accepted step. *)
Lemma hist_first (st : state) : instep st -> nst st = 0%nat -> steps (tr st) = [] -> hh st <> 0 ->
  vget (psi st) 0 = hh st -> 
  hist prob [(tn (nlp st), row (phi st) 0); (tn (nlp st) - hh st, vsub n (row (phi st) 0) (row (phi st) 1))] st.
Proof.
  intros Hi Hz Hs Hh Hp. destruct (is_zero _ Hi Hz) as (Hk & Hu).
  assert (Hp2 : tm [(tn (nlp st), row (phi st) 0); (tn (nlp st) - hh st, vsub n (row (phi st) 0) (row (phi st) 1))] 0 -
       tm [(tn (nlp st), row (phi st) 0); (tn (nlp st) - hh st, vsub n (row (phi st) 0) (row (phi st) 1))] 1 = hh st)
    by (cbn; ring).
  set (hs := [_; _]) in *.
  constructor.
  - reflexivity.
  - rewrite Hz. intros i L. assert (i = O) by lia. subst i. rewrite Hp2. apply sq_pos. exact Hh.
  - rewrite Hs. intros [|i] a E; discriminate.
  - rewrite Hk. intros i L. assert (i = O) by lia. subst i. rewrite Hp2. exact Hp.
  - rewrite Hu. intros j x L1 L2 Lx. destruct j as [|[|j]]; [|clear L1|lia].
    + cbn [rprod dd]. change (yv hs x 0) with (vget (row (phi st) 0) x). ring.
    + cbn [rprod dd Nat.add]. rewrite Hp2.
      change (yv hs x 0) with (vget (row (phi st) 0) x).
      change (yv hs x 1) with (vget (vsub n (row (phi st) 0) (row (phi st) 1)) x).
      rewrite vget_vsub by exact Lx. cbn [ssub ScalarR]. field. exact Hh.
  - lia.
  - intros X. congruence.
  - intros X. congruence.
Qed.

Lemma HJ_begin : i_begin prob ewt_set HJ.
Proof.
  intros st Ho (Jst & Lst) Hlim Hfr. pose proof (J_begin prob ewt_set c st Ho Jst Hlim Hfr) as J1.
  split; [exact J1|].
  destruct (init_fields st) as (F1 & F2 & F3 & F4 & F5 & F6 & F7 & F8 & F9 & F10 & F11 & F12 & F13 & F14 &
    F15 & F16 & F17 & F18 & F19 & _).
  assert (Hh : hh st <> 0).
  { destruct J1 as (_ & R1). rewrite <- F7. apply (rl_h _ _ _ R1). right. congruence. }
  destruct Jst as (L & _).
  intros Hn. rewrite F9 in Hn. destruct (Lst Hn) as (A1 & Ar & A2 & A3).
  assert (Eb : every bdf (tr (st_init st))) by (rewrite F19; apply every_cons; [split; exact I|exact A1]).
  assert (Ee : early_fail (tr (st_init st)) = early_fail (tr st)).
  { rewrite F19. apply (early_app [begin_ev st]). repeat constructor. }
  split; [exact Eb|]. split.
  { destruct (Nat.eq_dec (nst st) 0) as [Hz|Hz]; [unfold raised; rewrite F8; intros X; congruence|].
    assert (E : st_init st = on_lp (push_ev (begin_ev st)) st).
    { unfold st_init. cbv zeta. change (nst (on_lp (push_ev (begin_ev st)) st)) with (nst st).
      apply Nat.eqb_neq in Hz. rewrite Hz. reflexivity. }
    rewrite E. exact Ar. }
  rewrite Ee, F6, F8. split; [exact A2|]. intros _.
  pose proof (instep_init st Ho) as Hi.
  assert (Es : steps (tr (st_init st)) = steps (tr st)) by (rewrite F19; reflexivity).
  destruct (Nat.eq_dec (nst st) 0) as [Hz|Hz].
  - assert (Hs : steps (tr st) = []).
    { pose proof (tl_n _ _ _ _ L) as Ln. rewrite Hz in Ln. destruct (steps (tr st)); [reflexivity|discriminate]. }
    exists (tn (nlp st), row (phi st) 0), (tn (nlp st) - hh st, vsub n (row (phi st) 0) (row (phi st) 1)).
    unfold hpart. rewrite Es, Hs, Ee. cbn [map app]. split; [|split].
    + cbn [fst]. rewrite (tl_tn _ _ _ _ L). unfold now. rewrite Hs. reflexivity.
    + exact (A2 Hz).
    + assert (E0 : nst (st_init st) = 0%nat) by congruence.
      assert (E1 : hused (st_init st) = 0 /\ vget (psi (st_init st)) 0 = hh st /\ ns (st_init st) = 0%nat).
      { destruct Ho as ((_ & Hp & _) & _). unfold st_init. cbv zeta.
        change (nst (on_lp (push_ev (begin_ev st)) st)) with (nst st).
        change (psi (on_lp (push_ev (begin_ev st)) st)) with (psi st).
        change (hh (on_lp (push_ev (begin_ev st)) st)) with (hh st).
        rewrite Hz. cbn [Nat.eqb].
        split; [reflexivity|]. split; [|reflexivity].
        change (vget (upd (psi st) 0 (hh st)) 0 = hh st). unfold vget. rewrite nth_upd_eq by lia. reflexivity. }
      destruct E1 as (E1 & E2 & E3).
      split; [|split; [|split]].
      * pose proof (hist_first (st_init st) Hi E0) as X. rewrite Es, F7, F14, F6 in X. exact (X Hs Hh E2).
      * left. lia.
      * intros _. split; [exact E1|]. rewrite F7. exact E2.
      * intros X. congruence.
  - destruct (A3 (or_introl Hz)) as (b0 & b1 & B1 & B2 & B3 & B4 & B5).
    assert (Hk : hkey (st_init st) = hkey st /\ hh (st_init st) = hh st).
    { split; [|exact F7]. assert (E : st_init st = on_lp (push_ev (begin_ev st)) st).
      { unfold st_init. cbv zeta. change (nst (on_lp (push_ev (begin_ev st)) st)) with (nst st).
        apply Nat.eqb_neq in Hz. rewrite Hz. reflexivity. }
      rewrite E. reflexivity. }
    destruct Hk as (Hk & Hk2).
    exists b0, b1. unfold hpart. rewrite Es, Ee. split; [exact B1|]. split; [exact B2|]. cbv zeta.
    split; [|split; [|split]].
    + apply (hist_key _ st _ Hk); [|right; exact F7|exact B3]. intros _. rewrite F7. pose proof (sq_pos _ Hh). split; lra.
    + pose proof (hkey_fields _ _ Hk) as Q. destruct B4 as [B4|(B4 & B4')].
      * left. destruct Q as (_ & _ & _ & _ & _ & _ & _ & _ & _ & Q & _). rewrite Q. exact B4.
      * right. right. right. split; [exact (const_key _ _ _ Hk B4)|exact (full_key _ _ _ Hk B4')].
    + rewrite F8. intros X. congruence.
    + intros _. split; intros X; lia.
Qed.

Lemma cj_R (st : state) : cj_of st = lead_coeff (kk st) (hh st).
Proof.
  unfold cj_of, lead_coeff. cbn [sneg sdiv ScalarR]. f_equal. generalize (kk st). intros k.
  enough (A : asum k = - rsum k (fun i => / INR (i + 1))) by (rewrite A; ring).
  induction k as [|k IH]; [cbn; ring|]. cbn [asum rsum]. rewrite IH. cbn [ssub sdiv sone sofnat ScalarR].
  unfold Rdiv. ring.
Qed.

Lemma points_hs (st : state) b0 b1 i ti yi :
  fst b0 = g_t0 c -> (early_fail (tr st) = false -> snd b0 = yy0) ->
  nth_error (points (g_t0 c) yy0 (tr st)) i = Some (ti, yi) ->
  (i < length (steps (tr st)))%nat \/ early_fail (tr st) = false ->
  let hs := map apt (steps (tr st)) ++ [b0; b1] in
  ti = tm hs i /\ forall x, nth x yi 0 = yv hs x i.
Proof.
  intros B1 B2 E Hor hs.
  assert (A : nth i hs (0, []) = (ti, yi)).
  { unfold hs. unfold points in E. destruct (Nat.lt_ge_cases i (length (steps (tr st)))) as [L|L].
    - rewrite app_nth1 by (rewrite map_length; exact L).
      rewrite nth_error_app1 in E by (rewrite map_length; exact L). apply (nth_error_nth _ _ (0, [])) in E. exact E.
    - destruct Hor as [Hor|Hor]; [lia|].
      rewrite app_nth2 by (rewrite map_length; exact L). rewrite nth_error_app2 in E by (rewrite map_length; exact L).
      rewrite map_length in *. destruct (i - length (steps (tr st)))%nat as [|[|m]]; try discriminate.
      injection E as <- <-. destruct b0 as [u v]. cbn in *. rewrite B1, (B2 Hor). reflexivity. }
  unfold tm, yv. rewrite A. split; reflexivity.
Qed.

(** The residual calls of one attempt. *)
Lemma try_bdf (st st1 : state) t0 nef ck r b0 b1 :
  instep st -> J prob c (Some (t0, nef)) st -> hpart (Some (t0, nef)) st b0 b1 -> every bdf (tr st) -> raised st ->
  tried prob st st1 ck r -> attempted prob st st1 r ->
  let hs := map apt (steps (tr st)) ++ [b0; b1] in
  acoef prob hs st st1 /\ hh st <> 0 /\ tn_next st = tm hs 0 + hh st /\
  exists evs, tr st1 = fails r ++ evs ++ CTry (tn (nlp st)) (hh st) (kk st) :: tr st /\
    steps (tr st1) = steps (tr st) /\ every bdf (tr st1) /\
    Forall (fun e => calm e = true) evs /\ early_fail (evs ++ CTry (tn (nlp st)) (hh st) (kk st) :: tr st) = early_fail (tr st).
Proof.
  intros Hi Jst (B1 & B2 & B3 & B4 & B5 & B6) Hev Hra Htr Hat hs.
  destruct (rl_try prob ewt_set c _ _ _ _ _ _ Hi Jst Htr Hat) as (_ & _ & _ & _ & Hnx).
  destruct Jst as (L & Rl). destruct (rl_h _ _ _ Rl) as (Hh & _); [right; discriminate|].
  fold hs in B3, B4.
  assert (Hu : forall a rest, steps (tr st) = a :: rest -> hused st = a_h a).
  { intros a rest E. apply (tl_used _ _ _ _ L _ _ E). }
  assert (Hst : nst st <> 0%nat -> steps (tr st) <> []).
  { intros Hz E. pose proof (tl_n _ _ _ _ L) as Ln. rewrite E in Ln. cbn in Ln. congruence. }
  pose proof (attempt_coefs prob hs _ _ _ _ Hi B3 B4 Hh Hu Hst Htr) as A.
  pose proof (predicted prob hs _ _ _ _ B3 Hh A Htr) as P.
  assert (Hnx' : tn_next st = tm hs 0 + hh st).
  { rewrite Hnx. rewrite <- (h_now _ _ _ B3), (tl_tn _ _ _ _ L). reflexivity. }
  split; [exact A|]. split; [exact Hh|]. split; [exact Hnx'|].
  destruct Hat as (evs & A1 & A2 & _). exists evs.
  assert (Qc : Forall (fun e => calm e = true) evs).
  { apply quiet_calm. exact (call_in_callback prob ewt_set _ _ _ A2). }
  assert (Qf : Forall (fun e : event R => is_fail e = false) evs).
  { eapply Forall_impl; [|exact A2]. intros e X. destruct e; cbn in X |- *; try reflexivity; contradiction. }
  set (past0 := CTry (tn (nlp st)) (hh st) (kk st) :: tr st) in *.
  assert (E0 : early_fail past0 = early_fail (tr st)) by (apply (early_app [CTry _ _ _]); repeat constructor).
  destruct (calm_app evs past0 Qc) as (S1 & S2 & S3 & S4).
  split; [exact A1|]. split; [rewrite A1; destruct r as [u|[[]| |]]; cbn; exact S3|].
  split; [|split; [exact Qc|rewrite early_app by exact Qf; exact E0]].
  assert (Ht : every bdf past0).
  { apply every_cons; [split; [exact I|]|exact Hev]. intros a rest Es Ek.
    destruct (tl_used _ _ _ _ L _ _ Es) as (V1 & V2). pose proof (tl_n _ _ _ _ L) as Ln.
    rewrite Ln, <- V2. apply Hra; [|congruence]. rewrite <- Ln, Es. discriminate. }
  assert (He : every bdf (evs ++ past0)).
  { clear A1 S1 S2 S3 S4. revert A2 Qc Qf. induction evs as [|e evs IH]; intros A2 Qc Qf; [exact Ht|].
    inversion A2 as [|? ? A3 A4]; subst. inversion Qc as [|? ? Q3 Q4]; subst. inversion Qf as [|? ? Q5 Q6]; subst.
    cbn [app]. apply every_cons; [|exact (IH A4 Q4 Q6)].
    destruct (calm_app evs past0 Q4) as (S1 & S2 & S3 & S4).
    destruct e; cbn in A3 |- *; try contradiction; [|split; exact I].
    split; [|exact I]. destruct A3 as (-> & cc & -> & ->). intros s h k Elt. rewrite S1 in Elt. cbn in Elt.
    injection Elt as <- <- <-. rewrite S3.
    change (steps past0) with (steps (tr st)) in *.
    pose proof (tl_n _ _ _ _ L) as Ln. pose proof (is_kk _ Hi).
    assert (Ho : (kk st <= Nat.max 1 (nst st))%nat).
    { destruct (Nat.eq_dec (nst st) 0) as [Hz|Hz]; [pose proof (is_zero _ Hi Hz); lia|]. pose proof (h_ord _ _ _ B3 Hz). lia. }
    split; [lia|]. intros x Hx.
    destruct (P x Hx) as (P1 & P2).
    assert (Hd : distinct (kk st) (tm hs)).
    { pose proof (hist_distinct prob hs st B3 Hh) as D. intros i j Li Lj. apply D; lia. }
    destruct (npoly_through (tm hs) (yv hs x) (kk st) Hd) as (p & (Pl & Pn) & Pe).
    exists p, (vget (yppredict (nlp st1)) x). split; [|split].
    - split; [exact Pl|]. intros i ti yi Li Ei Hor.
      assert (Ep : points (g_t0 c) yy0 (evs ++ past0) = points (g_t0 c) yy0 (tr st)).
      { unfold points. rewrite S3. reflexivity. }
      rewrite Ep in Ei. rewrite S3, early_app, E0 in Hor by exact Q6. change (steps past0) with (steps (tr st)) in Hor.
      destruct (points_hs st b0 b1 i ti yi B1 B2 Ei Hor) as (X1 & X2). fold hs in X1, X2.
      rewrite X1, (X2 x). apply Pn. exact Li.
    - rewrite Hnx'. eapply derivable_ext; [|exact P2]. intros s. symmetry. apply Pe.
    - change (vget (vscaled_add n (yppredict (nlp st1)) (cj_of st) cc) x =
        vget (yppredict (nlp st1)) x + lead_coeff (kk st) (hh st) *
          (vget (vadd n (yypredict (nlp st1)) cc) x - peval p (tn_next st))).
      rewrite vget_vscaled_add, vget_vadd by exact Hx. rewrite Pe, Hnx', <- P1, cj_R.
      cbn [sadd smul ScalarR]. ring. }
  rewrite A1. unfold fails. destruct r as [u|[[]| |]]; try exact He. cbn [app]. apply every_cons; [split; exact I|exact He].
Qed.

Lemma hused_last (st : state) o : J prob c o st -> nst st <> 0%nat -> exists a rest,
  steps (tr st) = a :: rest /\ hused st = a_h a /\ 0 < hh st * hused st.
Proof.
  intros (L & R) Hz. pose proof (tl_n _ _ _ _ L) as Ln. destruct (steps (tr st)) as [|a rest] eqn:E; [cbn in Ln; congruence|].
  exists a, rest. split; [reflexivity|]. destruct (tl_used _ _ _ _ L _ _ E) as (_ & U). split; [exact U|].
  pose proof (rl_sign _ _ _ R) as S. rewrite E in S. inversion S; subst. rewrite U. assumption.
Qed.

Lemma HJ_retry : i_retry prob HJ.
Proof.
  intros st t0 nef st1 ck ek ek1 st' Hi (Jst & Lst) Et Htr Hat Hn Hrt.
  pose proof (J_retry prob ewt_set c st t0 nef st1 ck ek ek1 st' Hi Jst Et Htr Hat Hn Hrt) as J1.
  split; [exact J1|]. intros Hnc.
  pose proof (rt_nlp _ _ _ _ _ Hrt) as U1. pose proof (rt_keep _ _ _ _ _ Hrt) as U3.
  pose proof (tr_cnt _ _ _ _ _ Htr) as U4. pose proof (tr_h _ _ _ _ _ Htr) as U6.
  pose proof (tr_ord _ _ _ _ _ Htr) as U7. pose proof (rt_hh _ _ _ _ _ Hrt) as U8.
  pose proof (rt_kk _ _ _ _ _ Hrt) as U9. pose proof (tr_coeffs _ _ _ _ _ Htr) as (Cn & _).
  pose proof (maxord_tried prob _ _ _ _ Htr) as M1.
  pose proof (cfg_fields _ _ (rt_cfg _ _ _ _ _ Hrt)) as M2. destruct M2 as (_ & _ & _ & _ & _ & _ & _ & M2 & _).
  pose proof (tr_res _ _ _ _ _ Htr) as (Hkn & _).
  assert (Hq : / 4 <= rr st' <= 9 / 10).
  { apply (factor_R (nef + 1)); [lia|]. split; intros Hf.
    - apply (rt_rr0 _ _ _ _ _ Hrt). lia.
    - apply (rt_rr1 _ _ _ _ _ Hrt). lia. }
  assert (Hq2 : (1 <= nef)%nat -> rr st' = / 4).
  { intros X. pose proof (rt_rr1 _ _ _ _ _ Hrt X) as Q. rewrite Q. cbn. lra. }
  pose proof (rt_hist _ _ _ _ _ Hrt) as (ps & ph & G1 & G2 & G3).
  pinj.
  assert (Hnc0 : ncfn st = 0%nat) by congruence. destruct (Lst Hnc0) as (A1 & Ar & A2 & A3).
  assert (Hsome : nst st <> 0%nat \/ Some (t0, nef) <> None) by (right; discriminate).
  destruct (A3 Hsome) as (b0 & b1 & Hp).
  pose proof (try_bdf st st1 t0 nef ck _ b0 b1 Hi Jst Hp A1 Ar Htr Hat) as (Ac & Hh & Hnx & evs & T1 & T2 & T3 & T4 & T5).
  set (hs := map apt (steps (tr st)) ++ [b0; b1]) in *.
  assert (Ht : tr st' = tr st1) by (rewrite U1; reflexivity).
  assert (Hs : steps (tr st') = steps (tr st)) by congruence.
  assert (Eh : hh st' = hh st * rr st') by (cbn [smul ScalarR] in U8; congruence).
  pose proof (tl_in _ _ _ _ (proj1 Jst)) as (L10 & _ & _ & _). pose proof (tl_n _ _ _ _ (proj1 Jst)) as Ln.
  assert (Etn : tn (nlp st') = tn (nlp st)) by (rewrite U1; cbn; exact L10).
  assert (Hkk : (kk st' <= kk st)%nat /\ (1 <= kk st')%nat).
  { pose proof (is_kk _ Hi). rewrite U9. destruct (nef <=? 1)%nat; lia. }
  assert (Hn1 : nst st' = nst st) by congruence. assert (Hu1 : kused st' = kused st) by congruence.
  assert (Hu2 : hused st' = hused st) by congruence. assert (Hm : maxord st' = maxord st) by congruence.
  set (q := rr st') in *. clearbody q.
  assert (Hh' : hh st' <> 0) by (rewrite Eh; intros X; apply Rmult_integral in X; lra).
  split; [rewrite Ht; exact T3|].
  split; [apply (raised_ext st); auto; [lia|intros X; apply (is_pos _ Hi X)]|].
  destruct (Nat.eq_dec (nst st) 0) as [Hz|Hz].
  - assert (Hs0 : steps (tr st) = []).
    { rewrite Hz in Ln. destruct (steps (tr st)); [reflexivity|discriminate]. }
    assert (Ee : early_fail (tr st') = true).
    { rewrite Ht, T1. cbn [fails app early_fail]. destruct (calm_app evs (CTry (tn (nlp st)) (hh st) (kk st) :: tr st) T4) as (_ & _ & S3 & _).
      rewrite S3. cbn [steps]. rewrite Hs0. apply orb_true_r. }
    split; [rewrite Ee; discriminate|]. intros _.
    exists (tn (nlp st'), row (phi st') 0), (tn (nlp st') - hh st', vsub n (row (phi st') 0) (row (phi st') 1)).
    unfold hpart. rewrite Ee, Hs, Hs0. cbn [map app]. split; [|split; [discriminate|]].
    { cbn [fst]. rewrite (tl_tn _ _ _ _ (proj1 J1)). unfold now. rewrite Hs, Hs0. reflexivity. }
    destruct Hp as (_ & _ & _ & _ & Hp5 & _).
    assert (Hps0 : vget (psi st') 0 = hh st').
    { assert (Hz1 : nst st1 = 0%nat) by congruence. destruct (G3 Hz1) as (-> & _).
      destruct G1 as (G1 & _). unfold vget. rewrite nth_upd_eq by lia. reflexivity. }
    split; [|split; [|split]].
    + apply hist_first; [|congruence|congruence|exact Hh'|].
      * exact (instep_retry prob _ _ _ _ _ _ Hi Htr Hrt).
      * exact Hps0.
    + right; left. rewrite Hu2, (proj1 (Hp5 Hz)). exact Hh'.
    + intros _. rewrite Hu2. split; [exact (proj1 (Hp5 Hz))|exact Hps0].
    + intros X. congruence.
  - assert (Hs0 : steps (tr st) <> []).
    { intros E. rewrite E in Ln. cbn in Ln. congruence. }
    assert (Ee : early_fail (tr st') = early_fail (tr st)).
    { rewrite Ht, T1. cbn [fails app early_fail]. rewrite T5. destruct (calm_app evs (CTry (tn (nlp st)) (hh st) (kk st) :: tr st) T4) as (_ & _ & S3 & _).
      rewrite S3. cbn [steps]. destruct (steps (tr st)); [congruence|apply orb_false_r]. }
    split; [rewrite Hn1; intros X; congruence|]. intros _. exists b0, b1. unfold hpart. rewrite Ee, Hs. fold hs.
    destruct Hp as (B1 & B2 & B3 & B4 & B5 & B6). fold hs in B3, B4. specialize (B6 Hz). destruct B6 as (B6 & B7).
    split; [exact B1|]. split; [exact B2|].
    destruct (restored_hist prob hs st st1 _ _ ps ph Hi B3 Hh Ac Htr G1) as (R1 & R2).
    assert (Hz1 : nst st1 <> 0%nat) by congruence. destruct (G2 Hz1) as (G4 & G5).
    destruct (hused_last st _ Jst Hz) as (a & rest & _ & _ & Hpos).
    assert (Habs : Rabs (hh st') = q * Rabs (hh st)).
    { rewrite Eh, Rabs_mult, (Rabs_pos_eq q) by lra. ring. }
    pose proof (Rabs_pos (hh st)) as Hap. pose proof (h_big _ _ _ B3 Hz) as Hbig.
    cbv zeta. split; [|split; [|split]].
    + destruct B3 as [C1 C2 C3 C4 C5 C6 C7 C8].
      constructor; rewrite ?Etn, ?Hn1, ?Hu1, ?Hm, ?Hu2, ?Hs.
      * exact C1.
      * intros i Li. specialize (C2 i Li). rewrite Eh.
        replace ((tm hs i - tm hs (S i)) * (hh st * q)) with (((tm hs i - tm hs (S i)) * hh st) * q) by ring. nra.
      * exact C3.
      * rewrite G4. intros i Li. apply R1. lia.
      * rewrite G5. intros j x L1 L2 Lx. rewrite R2 by exact Lx. apply C5; assumption.
      * lia.
      * intros _. specialize (C7 Hz). lia.
      * intros _. rewrite Habs. nra.
    + assert (Hns : ns st' = ns_next st) by congruence.
      destruct (ns_next_cases st) as [X|(X1 & X2 & _)]; [left; lia|]. right; left. rewrite Hu2, Eh, <- X1. nra.
    + rewrite Hn1. intros X. congruence.
    + intros _. rewrite Hu2, Habs. split; intros X.
      * nra.
      * rewrite Hq2 by lia. assert (Rabs (hh st) <= 9 / 5 * Rabs (hused st)) by (apply B6; lia). lra.
Qed.

Lemma HJ_commit : i_commit prob HJ.
Proof.
  intros st t0 nef st1 ck ek ek1 st2 Hi (Jst & Lst) Et Htr Hat Hcp.
  pose proof (J_commit prob ewt_set c st t0 nef st1 ck ek ek1 st2 Hi Jst Et Htr Hat Hcp) as J1.
  split; [exact J1|]. intros Hnc.
  pose proof (cp_used _ _ _ Hcp) as U1. pose proof (cp_nlp _ _ _ Hcp) as U2.
  pose proof (tr_h _ _ _ _ _ Htr) as U6. pose proof (tr_tn _ _ _ _ _ Htr) as U7.
  pose proof (tr_cnt _ _ _ _ _ Htr) as U4. pose proof (cp_hh _ _ _ Hcp) as U8.
  pose proof (cp_keep _ _ _ Hcp) as U9.
  assert (Hcf : cfg st1 = cfg st) by apply Htr. apply cfg_fields in Hcf.
  assert (Hmi : hmax_inv st1 = g_hmax_inv c).
  { destruct (tl_cfg _ _ _ _ (proj1 Jst)) as (_ & _ & _ & Q & _). rewrite <- Q. tauto. }
  change (ncfn (st_commit prob ck st2)) with (ncfn st2) in Hnc.
  assert (Hnc0 : ncfn st = 0%nat) by (pinj; congruence).
  destruct (Lst Hnc0) as (A1 & Ar & A2 & A3).
  assert (Hsome : nst st <> 0%nat \/ Some (t0, nef) <> None) by (right; discriminate).
  destruct (A3 Hsome) as (b0 & b1 & Hp).
  pose proof (try_bdf st st1 t0 nef ck _ b0 b1 Hi Jst Hp A1 Ar Htr Hat) as (Ac & Hh & Hnx & evs & T1 & T2 & T3 & T4 & T5).
  destruct (rl_h _ _ _ (proj2 Jst)) as (_ & Hhi); [right; discriminate|].
  assert (Hh1 : hh st1 = hh st) by (pinj; assumption).
  rewrite Hmi, Hh1 in U8.
  set (hs := map apt (steps (tr st)) ++ [b0; b1]) in *.
  destruct Hp as (B1 & B2 & B3 & B4 & B5 & B6). fold hs in B3, B4.
  set (y := yy (nlp st2)) in *.
  assert (Ht : tr (st_commit prob ck st2) = CStep (tn_next st) y :: evs ++ CTry (tn (nlp st)) (hh st) (kk st) :: tr st).
  { unfold st_commit. cbn [nlp lp trace set_ee on_lp on_nlp set_nlp set_lp push_ev set_trace].
    rewrite U2, U7, T1. unfold y. rewrite U2. reflexivity. }
  destruct (calm_app evs (CTry (tn (nlp st)) (hh st) (kk st) :: tr st) T4) as (S1 & S2 & S3 & S4).
  assert (Hs : steps (tr (st_commit prob ck st2)) = mkastep (tn_next st) y (hh st) (kk st) :: steps (tr st)).
  { rewrite Ht. cbn. rewrite S1, S3. reflexivity. }
  assert (Hn1 : nst (st_commit prob ck st2) <> 0%nat).
  { pose proof (tl_n _ _ _ _ (proj1 J1)) as Ln. rewrite <- Ln, Hs. discriminate. }
  assert (Hu : forall a rest, steps (tr st) = a :: rest -> hused st = a_h a).
  { intros a rest E. apply (tl_used _ _ _ _ (proj1 Jst) _ _ E). }
  assert (Hst : nst st <> 0%nat -> steps (tr st) <> []).
  { intros Hz E. pose proof (tl_n _ _ _ _ (proj1 Jst)) as Ln. rewrite E in Ln. cbn in Ln. congruence. }
  destruct (commit_hist prob hs st st1 st2 ck (g_hmax_inv c) Hi B3 B4 Hh Hu Hst (tl_phase _ _ _ _ (proj1 Jst))
    Hnx Htr Hcp Hhi U8 Hs) as (C1 & C2 & C3).
  split.
  { rewrite Ht. apply every_cons; [split; exact I|]. cbn [fails app] in T1. rewrite <- T1. exact T3. }
  split.
  { intros _ Ek. change (kk (st_commit prob ck st2)) with (kk st2) in *. change (kused (st_commit prob ck st2)) with (kused st2) in Ek.
    change (nst (st_commit prob ck st2)) with (nst st2). change (hused (st_commit prob ck st2)) with (hused st2).
    pose proof (tr_ord _ _ _ _ _ Htr) as U10.
    assert (Ek1 : kused st2 = kk st1 /\ kk st1 = kk st /\ phase st1 = phase st /\ nst st2 = (nst st + 1)%nat /\ nst st1 = nst st /\ ns st2 = ns st1)
      by (pinj; intuition congruence).
    destruct Ek1 as (E1 & E2 & E3 & E4 & E5 & E6).
    destruct (cp_kk _ _ _ Hcp) as [X|[(_ & X)|(_ & _ & [(X1 & X2)|(X1 & _)])]]; [lia|lia| |].
    - left. rewrite E4, Ek, E1, E2. rewrite E3 in X1. rewrite E5 in X2.
      rewrite (tl_phase _ _ _ _ (proj1 Jst) X1) by lia. reflexivity.
    - right. destruct C2 as [C2|((C2 & C2') & _)]; change (ns (st_commit prob ck st2)) with (ns st2) in *; [lia|].
      change (nst (st_commit prob ck st2)) with (nst st2) in C2. change (hused (st_commit prob ck st2)) with (hused st2) in C2'.
      split; [lia|]. intros i b Li Eb. rewrite <- (C2' i) by lia. symmetry. exact (h_size _ _ _ C1 i b Eb). }
  split; [intros X; congruence|]. intros _.
  assert (Ee : early_fail (tr (st_commit prob ck st2)) = early_fail (tr st)).
  { rewrite Ht. change (CStep (tn_next st) y :: ?z) with ([CStep (tn_next st) y] ++ z).
    rewrite early_app by (repeat constructor). exact T5. }
  exists b0, b1. unfold hpart. rewrite Ee, Hs. split; [exact B1|]. split; [exact B2|].
  cbn [map app]. change (apt (mkastep (tn_next st) y (hh st) (kk st))) with (tn_next st, y).
  cbv zeta. change (map apt (steps (tr st)) ++ [b0; b1]) with hs.
  split; [exact C1|]. split; [exact C2|]. intros _. exact C3.
Qed.

Lemma HJ_giveup : i_giveup prob HJ.
Proof.
  intros st t0 nef st1 ck ek ek1 st' e Hi (Jst & Lst) Et Htr Hat Hg He.
  pose proof (J_giveup prob ewt_set c st t0 nef st1 ck ek ek1 st' e Hi Jst Et Htr Hat Hg He) as J1.
  split; [exact J1|]. intros Hnc.
  destruct He as [(-> & _ & Hnef & _ & He)|(_ & _ & He)]; [|exfalso; lia].
  pose proof (gu_keep _ _ _ _ Hg) as U1. pose proof (gu_nlp _ _ _ _ Hg) as U2.
  pose proof (tr_h _ _ _ _ _ Htr) as U6. pose proof (tr_cnt _ _ _ _ _ Htr) as U4.
  pose proof (tr_ord _ _ _ _ _ Htr) as U7. pose proof (tr_coeffs _ _ _ _ _ Htr) as (Cn & _).
  pose proof (maxord_tried prob _ _ _ _ Htr) as M1.
  pose proof (cfg_fields _ _ (gu_cfg _ _ _ _ Hg)) as M2. destruct M2 as (_ & _ & _ & _ & _ & _ & _ & M2 & _).
  pose proof (gu_hist _ _ _ _ Hg) as G1.
  pinj.
  assert (Hnc0 : ncfn st = 0%nat) by congruence. destruct (Lst Hnc0) as (A1 & Ar & A2 & A3).
  assert (Hsome : nst st <> 0%nat \/ Some (t0, nef) <> None) by (right; discriminate).
  destruct (A3 Hsome) as (b0 & b1 & Hp).
  pose proof (try_bdf st st1 t0 nef ck _ b0 b1 Hi Jst Hp A1 Ar Htr Hat) as (Ac & Hh & Hnx & evs & T1 & T2 & T3 & T4 & T5).
  set (hs := map apt (steps (tr st)) ++ [b0; b1]) in *.
  assert (Ht : tr st' = tr st1) by (rewrite U2; reflexivity).
  assert (Hs : steps (tr st') = steps (tr st)) by congruence.
  pose proof (tl_in _ _ _ _ (proj1 Jst)) as (L10 & _ & _ & _). pose proof (tl_n _ _ _ _ (proj1 Jst)) as Ln.
  assert (Etn : tn (nlp st') = tn (nlp st)) by (rewrite U2; cbn; exact L10).
  assert (Hn1 : nst st' = nst st) by congruence. assert (Hu1 : kused st' = kused st) by congruence.
  assert (Hu2 : hused st' = hused st) by congruence. assert (Hm : maxord st' = maxord st) by congruence.
  assert (Hk1 : kk st' = kk st) by congruence. assert (Eh : hh st' = hh st) by congruence.
  assert (Hns : ns st' = ns_next st) by congruence.
  destruct (calm_app evs (CTry (tn (nlp st)) (hh st) (kk st) :: tr st) T4) as (_ & _ & S3 & S4).
  split; [rewrite Ht; exact T3|]. split; [apply (raised_ext st); auto; [lia|intros X; apply (is_pos _ Hi X)]|]. split.
  { intros Hz. rewrite Hn1 in Hz. rewrite Ht, T1. cbn [fails app early_fail]. rewrite S3. cbn [steps].
    rewrite Hz in Ln. destruct (steps (tr st)); [|discriminate]. rewrite orb_true_r. discriminate. }
  intros [Hz|Hz]; [|congruence]. rewrite Hn1 in Hz.
  assert (Hs0 : steps (tr st) <> []).
  { intros E. rewrite E in Ln. cbn in Ln. congruence. }
  assert (Ee : early_fail (tr st') = early_fail (tr st)).
  { rewrite Ht, T1. cbn [fails app early_fail]. rewrite T5, S3. cbn [steps].
    destruct (steps (tr st)); [congruence|apply orb_false_r]. }
  exists b0, b1. unfold hpart. rewrite Ee, Hs. fold hs.
  destruct Hp as (B1 & B2 & B3 & B4 & B5 & B6). fold hs in B3, B4. specialize (B6 Hz). destruct B6 as (_ & B7).
  specialize (B7 Hnef).
  split; [exact B1|]. split; [exact B2|].
  destruct (restored_hist prob hs st st1 _ _ _ _ Hi B3 Hh Ac Htr G1) as (R1 & R2).
  destruct (hused_last st _ Jst Hz) as (a & rest & _ & _ & Hpos).
  cbv zeta. split; [|split].
  - destruct B3 as [C1 C2 C3 C4 C5 C6 C7 C8].
    constructor; rewrite ?Etn, ?Hn1, ?Hu1, ?Hm, ?Hu2, ?Hs, ?Hk1, ?Eh; try assumption.
    intros j x L1 L2 Lx. rewrite R2 by exact Lx. apply C5; assumption.
  - left. rewrite Hns. destruct (ns_next_cases st) as [X|(X1 & _)]; [exact X|]. exfalso.
    rewrite X1 in *. assert (0 < Rabs (hused st)) by (apply Rabs_pos_lt; nra). lra.
  - intros X. exfalso. rewrite Ht, T1 in X. cbn in X. rewrite S4 in X. discriminate.
Qed.

Lemma HJ_in : i_in prob ewt_set HJ.
Proof. split; [exact HJ_begin|]. split; [exact HJ_retry|]. split; [exact HJ_commit|exact HJ_giveup]. Qed.

Lemma reach_HJ (st : state) : reach prob ewt_set c yy0 yp0 st -> HJ None st.
Proof.
  apply (reach_life prob ewt_set Hl HJ c yy0 yp0 st Hc);
    [apply HJ_new|apply HJ_shell|apply HJ_lims|apply HJ_first|exact HJ_in].
Qed.
End HistLife.
