(** * IdaStep: what one step attempt and one internal step do, for every scalar *)
Require Import List Arith Bool Lia.
Import ListNotations.
Require Import Verif.Base Verif.Scalar Verif.Norms Verif.Newton Verif.IdaState Verif.IdaNls
  Verif.IdaCore Verif.BaseFacts Verif.NewtonFacts Verif.IdaFacts Verif.IdaLoops.

Ltac pinj :=
  repeat match goal with
  | H : (_, _) = (_, _) |- _ => injection H; clear H; intros
  end.

Section Step.
Context {T LSt NSt : Type} `{Scalar T} `{LSolver T LSt} `{NLSolver T NSt}.
Variable prob : problem T.
Notation n := (model_size prob).
Notation state := (ida T LSt NSt).

(** Value of the constant-step counter during the attempt. *)
Definition ns_next (st : state) : nat :=
  Nat.min ((if sneqb (hh st) (hused st) || negb (kk st =? kused st) then 0 else ns st) + 1)
          (kused st + 2).

Lemma bump_ns_eq (st : state) : bump_ns st = set_ns (ns_next st) st.
Proof. unfold bump_ns, ns_next. destruct (sneqb _ _ || _); reflexivity. Qed.

(** The arrays after [set_coeffs] relative to those before. *)
Definition coeffs_step (st st' : state) : Prop :=
  ns st' = ns_next st /\
  (ns st' <= kk st + 1 ->
     coeffs (kk st) (hh st) (psi st) (psi st') (beta st') (alpha st') (sigma st') (gamma st')) /\
  (kk st + 1 < ns st' ->
     psi st' = psi st /\ beta st' = beta st /\ alpha st' = alpha st /\
     sigma st' = sigma st /\ gamma st' = gamma st) /\
  (forall i, ns st' <= i <= kk st -> row (phi st') i = vscale n (vget (beta st') i) (row (phi st) i)) /\
  (forall i, i < ns st' \/ kk st < i -> row (phi st') i = row (phi st) i).

Definition cj_of (st : state) : T := (- asum (kk st) / hh st)%sc.
Definition ck_of (st : state) (al : list T) : T :=
  smax (sabs (vget al (kk st) + asum (kk st) - a0sum al (kk st))%sc) (vget al (kk st)).

Lemma set_coeffs_spec (st : state) :
  arrays st -> kk st <= 5 ->
  exists st', set_coeffs prob st = Ret (st', ck_of st (alpha st')) /\
    arrays st' /\ coeffs_step st st' /\ cj (lp (nlp st')) = cj_of st /\
    cjlast st' = cj (lp (nlp st)).
Proof.
  intros Ha Hk. unfold set_coeffs. rewrite bump_ns_eq.
  set (st0 := set_ns (ns_next st) st).
  destruct (compute_coeffs_spec st0) as (ps & be & al & sg & ga & E & L1 & L2 & L3 & L4 & L5 & C1 & C2);
    [exact Ha|exact Hk|].
  rewrite E. cbn [bind]. clear E.
  set (st1 := set_gamma _ _).
  assert (Ha1 : arrays st1).
  { destruct Ha as (A1 & A2 & A3 & A4 & A5 & A6 & A7). unfold arrays. cbn. auto 12. }
  rewrite (leading_coeff_spec st1 Ha1 Hk). cbn [bind].
  set (st2 := on_lp _ _).
  destruct (scale_phi_spec prob st2) as (ph & E & L & P1 & P2); [exact Ha1|exact Hk|].
  rewrite E. cbn [bind]. exists (set_phi ph st2). split; [reflexivity|].
  split.
  { destruct Ha1 as (A1 & A2). split; [exact L|exact A2]. }
  split; [|split; reflexivity].
  split; [reflexivity|]. split; [exact C1|]. split; [exact C2|]. split; [exact P1|exact P2].
Qed.

(** [advance_tn]. *)
Definition tn_next (st : state) : T :=
  match tstop st with
  | Some ts => if (sone <? (tn (nlp st) + hh st - ts) * hh st)%sc then ts else (tn (nlp st) + hh st)%sc
  | None => (tn (nlp st) + hh st)%sc
  end.

Lemma advance_tn_eq (st : state) : advance_tn st = on_nlp (set_tn (tn_next st)) st.
Proof.
  unfold advance_tn, tn_next. cbv zeta. cbn [tstop on_nlp set_nlp].
  destruct (tstop st) as [ts|]; [|reflexivity].
  cbn [hh nlp tn set_tn set_nlp on_nlp]. destruct (_ <? _)%sc; reflexivity.
Qed.

(** Result of [try_step] up to the nonlinear solver's answer. *)
Record tried (st st' : state) (ck : T) (r : result unit (err T)) : Prop := mktried {
  tr_cfg : cfg st' = cfg st;
  tr_outer : outer st' = outer st;
  tr_root : rootst st' = rootst st;
  tr_vals : (dvals st', cvals st') = (dvals st, cvals st);
  tr_ord : (kk st', kused st', phase st') = (kk st, kused st, phase st);
  tr_h : (hh st', hused st', rr st') = (hh st, hused st, rr st);
  tr_cnt : (nst st', ncfn st', netf st') = (nst st, ncfn st, netf st);
  tr_arrays : arrays st';
  tr_coeffs : coeffs_step st st';
  tr_ck : ck = ck_of st (alpha st');
  tr_cj : cj (lp (nlp st')) = cj_of st;
  tr_tn : tn (nlp st') = tn_next st;
  tr_ewt : (ewt (nlp st'), toldel (nlp st')) = (ewt (nlp st), toldel (nlp st));
  tr_yyp : yypredict (nlp st') = rowsum prob (phi st') (kk st + 1);
  tr_ypp : yppredict (nlp st') = rowcomb1 prob (gamma st') (phi st') (kk st);
  tr_perf : (nst0 (lp (nlp st')), nni0 (lp (nlp st')), ncfn0 (lp (nlp st')), ncfl0 (lp (nlp st')),
             nwarn (lp (nlp st'))) =
            (nst0 (lp (nlp st)), nni0 (lp (nlp st)), ncfn0 (lp (nlp st)), ncfl0 (lp (nlp st)),
             nwarn (lp (nlp st)));
  tr_res :
    match r with
    | Ok _ => yy (nlp st') = vadd n (yypredict (nlp st')) (ee st') /\
              yp (nlp st') = vscaled_add n (yppredict (nlp st')) (cj (lp (nlp st'))) (ee st') /\
              constraints_set st' = false /\
              (knew st' = kk st \/ 2 <= kk st /\ knew st' = kk st - 1) /\
              (ck * wrms_norm (idv st') (ee st') (ewt (nlp st')) (suppressalg st') <=? sone)%sc = true
    | Err (ENls _) => True
    | Err (EIda TestFail) =>
        (knew st' = kk st \/ 2 <= kk st /\ knew st' = kk st - 1) /\
        constraints_set st' = false /\
        (ck * wrms_norm (idv st') (ee st') (ewt (nlp st')) (suppressalg st') <=? sone)%sc = false
    | Err _ => False
    end }.

Lemma cfg_fields (a b : state) : cfg a = cfg b ->
  constraints_set a = constraints_set b /\ suppressalg a = suppressalg b /\ idv a = idv b /\
  hin a = hin b /\ epcon a = epcon b /\ maxncf a = maxncf b /\ maxnef a = maxnef b /\
  maxord a = maxord b /\ mxstep a = mxstep b /\ hmax_inv a = hmax_inv b /\ nrtfn a = nrtfn b /\
  rootdir a = rootdir b /\ mxgnull a = mxgnull b /\ nni a = nni b.
Proof. unfold cfg. intros E. pinj. repeat split; assumption. Qed.

Lemma outer_fields (a b : state) : outer a = outer b ->
  setup_done a = setup_done b /\ tstop a = tstop b /\ h0u a = h0u b /\ tretlast a = tretlast b /\
  eps_newt a = eps_newt b /\ tolsf a = tolsf b.
Proof. unfold outer. intros E. pinj. repeat split; assumption. Qed.

Lemma rootst_fields (a b : state) : rootst a = rootst b ->
  iroots a = iroots b /\ tlo a = tlo b /\ thi a = thi b /\ trout a = trout b /\
  glo a = glo b /\ ghi a = ghi b /\ grout a = grout b /\ toutc a = toutc b /\ ttol a = ttol b /\
  taskc a = taskc b /\ irfnd a = irfnd b /\ nge a = nge b /\ gactive a = gactive b.
Proof. unfold rootst. intros E. pinj. repeat split; assumption. Qed.

Lemma try_step_spec (Hl : nls_lawful) (st st' : state) ck ek ek1 r :
  arrays st -> kk st <= 5 ->
  try_step prob st = Ret (st', ck, ek, ek1, r) -> tried st st' ck r.
Proof.
  intros Ha Hk E. unfold try_step in E.
  set (sta := on_lp (push_ev _) st) in E.
  destruct (set_coeffs_spec sta) as (st1 & E1 & A1 & C1 & J1 & _); [exact Ha|exact Hk|].
  cbv zeta in E. rewrite E1 in E. cbn [bind] in E. cbv beta iota in E.
  rewrite advance_tn_eq in E. set (st2 := on_nlp (set_tn _) st1) in E.
  apply set_coeffs_frame in E1.
  destruct E1 as (F1 & F2 & F3 & F4 & F5 & F6 & F7 & F8 & F9). pinj.
  assert (A2 : arrays st2) by exact A1.
  assert (K2 : kk st2 = kk st) by assumption.
  rewrite (predict_spec prob st2) in E by (auto; lia). cbn [bind] in E.
  set (st3 := on_nlp _ st2) in E.
  apply bind_ret_inv in E. destruct E as ((st4 & r4) & E4 & E). cbv beta iota in E.
  apply (nonlinear_solve_frame prob Hl) in E4.
  destruct E4 as (G1 & G2 & G3 & G4 & G5 & G6 & G7 & G8 & G9 & G10 & G11).
  assert (Htn : tn_next st1 = tn_next st).
  { unfold tn_next. destruct (outer_fields _ _ F2) as (_ & -> & _).
    rewrite F9. change (hh sta) with (hh st) in *.
    replace (hh st1) with (hh st) by congruence. reflexivity. }
  assert (Hkeep : forall st5 : state, nlpkeep (nlp st5) = nlpkeep (nlp st4) ->
    cj (lp (nlp st5)) = cj_of st /\ tn (nlp st5) = tn_next st /\
    (ewt (nlp st5), toldel (nlp st5)) = (ewt (nlp st), toldel (nlp st)) /\
    yypredict (nlp st5) = rowsum prob (phi st1) (kk st + 1) /\
    yppredict (nlp st5) = rowcomb1 prob (gamma st1) (phi st1) (kk st) /\
    (nst0 (lp (nlp st5)), nni0 (lp (nlp st5)), ncfn0 (lp (nlp st5)), ncfl0 (lp (nlp st5)),
             nwarn (lp (nlp st5))) =
            (nst0 (lp (nlp st)), nni0 (lp (nlp st)), ncfn0 (lp (nlp st)), ncfl0 (lp (nlp st)),
             nwarn (lp (nlp st)))).
  { intros st5 E5. rewrite G10 in E5. unfold nlpkeep in E5.
    unfold st3 in E5. cbn [nlp on_nlp set_nlp yypredict yppredict ewt tn toldel lp
      set_yypredict set_yppredict] in E5. unfold st2 in E5 at 1 2 3 4 5 6 7 8.
    cbn [nlp on_nlp set_nlp yypredict yppredict ewt tn toldel lp set_tn] in E5.
    rewrite F9 in E5.
    cbn [nlp on_nlp set_nlp yypredict yppredict ewt tn toldel lp set_lp set_cj lp_sqrtn lp_eplifac
       nst0 nni0 ncfn0 ncfl0 nwarn cj] in E5.
    pinj. repeat split; try congruence.
    - etransitivity; [eassumption|exact J1].
    - repeat match goal with Hx : _ (lp (nlp st5)) = _ |- _ => rewrite Hx; clear Hx end.
      rewrite F9. reflexivity. }
  pinj.
  change (phi st3) with (phi st1) in *; change (psi st3) with (psi st1) in *.
  change (beta st3) with (beta st1) in *; change (alpha st3) with (alpha st1) in *.
  change (sigma st3) with (sigma st1) in *; change (gamma st3) with (gamma st1) in *.
  assert (A4 : arrays st4).
  { destruct A1 as (B1 & B2 & B3 & B4 & B5 & B6 & B7 & B8). unfold arrays.
    change (dvals st3) with (dvals st1) in *. change (cvals st3) with (cvals st1) in *.
    repeat split; congruence. }
  assert (C4 : coeffs_step st st4).
  { unfold coeffs_step in C1 |- *.
    change (ns_next sta) with (ns_next st) in C1. change (kk sta) with (kk st) in C1.
    change (hh sta) with (hh st) in C1. change (psi sta) with (psi st) in C1.
    change (phi sta) with (phi st) in C1. change (beta sta) with (beta st) in C1.
    change (alpha sta) with (alpha st) in C1. change (sigma sta) with (sigma st) in C1.
    change (gamma sta) with (gamma st) in C1.
    change (ns st3) with (ns st1) in *.
    replace (ns st4) with (ns st1) by congruence. replace (psi st4) with (psi st1) by congruence.
    replace (phi st4) with (phi st1) by congruence. replace (beta st4) with (beta st1) by congruence.
    replace (alpha st4) with (alpha st1) by congruence. replace (sigma st4) with (sigma st1) by congruence.
    replace (gamma st4) with (gamma st1) by congruence. exact C1. }
  change (ck_of sta (alpha st1)) with (ck_of st (alpha st1)) in E.
  assert (Hal : alpha st1 = alpha st4) by congruence. rewrite Hal in E.
  change (kk st3) with (kk st1) in *. change (kused st3) with (kused st1) in *.
  change (phase st3) with (phase st1) in *. change (hh st3) with (hh st1) in *.
  change (hused st3) with (hused st1) in *. change (rr st3) with (rr st1) in *.
  change (nst st3) with (nst st1) in *. change (ncfn st3) with (ncfn st1) in *.
  change (netf st3) with (netf st1) in *. change (cfg st3) with (cfg st1) in *.
  change (outer st3) with (outer st1) in *. change (rootst st3) with (rootst st1) in *.
  change (dvals st3) with (dvals st1) in *. change (cvals st3) with (cvals st1) in *.
  change (cfg sta) with (cfg st) in *. change (outer sta) with (outer st) in *.
  change (rootst sta) with (rootst st) in *. change (dvals sta) with (dvals st) in *.
  change (cvals sta) with (cvals st) in *. change (kk sta) with (kk st) in *.
  change (kused sta) with (kused st) in *. change (phase sta) with (phase st) in *.
  change (hh sta) with (hh st) in *. change (hused sta) with (hused st) in *.
  change (rr sta) with (rr st) in *. change (nst sta) with (nst st) in *.
  change (ncfn sta) with (ncfn st) in *. change (netf sta) with (netf st) in *.
  assert (Hphi : phi st1 = phi st4) by congruence. assert (Hga : gamma st1 = gamma st4) by congruence.
  destruct r4 as [u|e].
  - destruct G11 as (Y1 & Y2 & Y3).
    apply bind_ret_inv in E. destruct E as ((((st5 & ek5) & ek15) & r5) & E5 & E). cbv beta iota in E.
    injection E as -> <- -> -> ->.
    apply test_error_frame in E5.
    destruct E5 as (T1 & T2 & T3 & T4 & T5 & T6 & T7 & T8 & T9 & T10 & T11).
    pose proof (cfg_fields _ _ T1) as (TC1 & TC2 & TC3 & _).
    assert (Hn5 : nlpkeep (nlp st') = nlpkeep (nlp st4) /\ yy (nlp st') = yy (nlp st4) /\
                  yp (nlp st') = yp (nlp st4)).
    { destruct r as [u'|e'].
      - destruct T11 as (_ & ->). auto.
      - destruct T11 as (_ & _ & ->). auto. }
    destruct Hn5 as (Hn5 & Hyy & Hyp). pinj.
    destruct (Hkeep st' Hn5) as (K3 & K4 & K5 & K6 & K7 & K8).
    assert (Hew : ewt (nlp st') = ewt (nlp st4)) by (unfold nlpkeep in Hn5; pinj; assumption).
    assert (Hyp5 : yypredict (nlp st') = yypredict (nlp st4)) by (unfold nlpkeep in Hn5; pinj; assumption).
    assert (Hpp5 : yppredict (nlp st') = yppredict (nlp st4)) by (unfold nlpkeep in Hn5; pinj; assumption).
    assert (Hcj5 : cj (lp (nlp st')) = cj (lp (nlp st4))) by (unfold nlpkeep in Hn5; pinj; assumption).
    constructor; try congruence.
    + destruct A4 as (B1 & B2 & B3 & B4 & B5 & B6 & B7 & B8). unfold arrays. repeat split; congruence.
    + unfold coeffs_step in C4 |- *.
      replace (ns st') with (ns st4) by congruence. replace (psi st') with (psi st4) by congruence.
      replace (phi st') with (phi st4) by congruence. replace (beta st') with (beta st4) by congruence.
      replace (alpha st') with (alpha st4) by congruence. replace (sigma st') with (sigma st4) by congruence.
      replace (gamma st') with (gamma st4) by congruence. exact C4.
    + assert (Hk4 : kk st4 = kk st) by congruence. rewrite Hk4 in T10.
      assert (Hee : ee st' = ee st4) by congruence.
      assert (Hwr : wrms_norm (idv st') (ee st') (ewt (nlp st')) (suppressalg st')
              = wrms_norm (idv st4) (ee st4) (ewt (nlp st4)) (suppressalg st4)) by congruence.
      rewrite Hwr.
      destruct r as [u'|e'].
      * destruct T11 as (T11 & _). repeat split; try congruence; try assumption.
      * destruct T11 as (-> & T11 & _). repeat split; try congruence; try assumption.
  - injection E as -> <- _ _ <-.
    destruct (Hkeep st' eq_refl) as (K3 & K4 & K5 & K6 & K7 & K8).
    constructor; try congruence.
    destruct e as [e|e|]; try contradiction. exact I.
Qed.

(** Step size and order chosen by [complete_step]. *)
Definition dbl (hi h : T) : T :=
  let tmp := (sabs (stwo * h) * hi)%sc in
  if (sone <? tmp)%sc then (stwo * h / tmp)%sc else (stwo * h)%sc.

Definition next_h (hi h h' : T) : Prop :=
  h' = h \/ h' = dbl hi h \/
  exists r, (r <=? sone)%sc = true /\ h' = (h * smax shalf (smin r spt9))%sc.

Record completed (st st' : state) : Prop := mkcompleted {
  cp_cfg : cfg st' = cfg st;
  cp_outer : outer st' = outer st;
  cp_root : rootst st' = rootst st;
  cp_vals : (dvals st', cvals st') = (dvals st, cvals st);
  cp_coef : (psi st', alpha st', beta st', sigma st', gamma st')
    = (psi st, alpha st, beta st, sigma st, gamma st);
  cp_used : (kused st', hused st', nst st') = (kk st, hh st, nst st + 1);
  cp_keep : (knew st', ns st', cjlast st', ee st', delta st', ncfn st', netf st', nls st')
    = (knew st, ns st, cjlast st, ee st, delta st, ncfn st, netf st, nls st);
  cp_nlp : nlp st' = nlp st;
  cp_arrays : arrays st';
  cp_phase : phase st' = phase st \/ phase st' = 1;
  cp_kk : kk st' = kk st \/ (2 <= kk st /\ kk st' = kk st - 1) \/
          (kk st < maxord st /\ kk st' = kk st + 1 /\
           (phase st = 0 /\ 1 <= nst st \/ kk st + 1 < ns st /\ kk st <> kused st + 1));
  cp_zero : phase st' = 0 -> phase st = 0 /\ (nst st = 0 -> kk st' = kk st /\ hh st' = hh st) /\
            (nst st <> 0 -> kk st' = kk st + 1 /\ hh st' = dbl (hmax_inv st) (hh st));
  cp_hh : next_h (hmax_inv st) (hh st) (hh st');
  cp_row : forall j, j <= kk st -> row (phi st') j = tailsum prob (ee st) (phi st) j (kk st + 1 - j);
  cp_row1 : kk st < maxord st -> row (phi st') (kk st + 1) = ee st;
  cp_rest : forall j, kk st < j -> kk st = maxord st \/ kk st + 1 < j -> row (phi st') j = row (phi st) j }.

Lemma choose_order_spec (st : state) ek ek1 kd :
  arrays st -> 1 <= kk st <= maxord st -> maxord st <= 5 ->
  (knew st = kk st \/ 2 <= kk st /\ knew st = kk st - 1) ->
  exists act e, choose_order prob st ek ek1 kd = Ret (act, e) /\
    match act with
    | Lower => 2 <= kk st
    | Maintain => True
    | Raise => kk st < maxord st /\ kk st + 1 < ns st /\ kd = false
    end.
Proof.
  intros (L1 & _) Hk Hm Hn. unfold choose_order. rewrite usub_ret by lia. cbn [bind].
  destruct (Nat.eqb_spec (knew st) (kk st - 1)) as [E1|E1].
  { eexists _, _. split; [reflexivity|]. cbn. lia. }
  destruct (Nat.eqb_spec (kk st) (maxord st)) as [E2|E2].
  { eexists _, _. split; [reflexivity|exact I]. }
  destruct (Nat.leb_spec (ns st) (kk st + 1)) as [E3|E3]; cbn [orb].
  { eexists _, _. split; [reflexivity|exact I]. }
  destruct kd; cbn [orb].
  { eexists _, _. split; [reflexivity|exact I]. }
  rewrite (aget_ret _ (kk st + 1) []) by lia. cbn [bind].
  destruct (Nat.eqb_spec (kk st) 1) as [E4|E4]; cbv zeta.
  - destruct (_ <=? _)%sc; eexists _, _; (split; [reflexivity|]); cbn; auto; lia.
  - destruct (_ <=? _)%sc; [|destruct (_ <=? _)%sc];
      eexists _, _; (split; [reflexivity|]); cbn; auto; lia.
Qed.

Lemma choose_step_spec (st : state) act ek ek1 ek2 :
  (act = Lower -> 2 <= kk st) ->
  exists k h r, choose_step st act ek ek1 ek2 = Ret (set_hh h (set_rr r (set_kk k st))) /\
    next_h (hmax_inv st) (hh st) h /\
    match act with
    | Lower => k = kk st - 1
    | Maintain => k = kk st
    | Raise => k = kk st + 1
    end.
Proof.
  intros Ha. unfold choose_step.
  assert (He : exists k e, match act with
     | Lower => let* k := usub (kk st) 1 in Ret (set_kk k st, ek1)
     | Maintain => Ret (st, ek)
     | Raise => Ret (set_kk (kk st + 1) st, ek2)
     end = Ret (set_kk k st, e) /\
     match act with
    | Lower => k = kk st - 1
    | Maintain => k = kk st
    | Raise => k = kk st + 1
    end).
  { destruct act.
    - rewrite usub_ret by (specialize (Ha eq_refl); lia). cbn. eauto.
    - exists (kk st), ek. split; [destruct st; reflexivity|reflexivity].
    - eauto. }
  destruct He as (k & e & He & Hk). rewrite He. cbn [bind]. cbv zeta.
  cbn [rr set_rr hh set_kk kk].
  match goal with |- context [set_rr ?x (set_kk k st)] => set (r0 := x) end.
  exists k.
  destruct (stwo <=? r0)%sc; [|destruct (r0 <=? sone)%sc eqn:E].
  - eexists _, _. split; [reflexivity|]. split; [|exact Hk]. right. left. reflexivity.
  - eexists _, _. split; [reflexivity|]. split; [|exact Hk]. right. right. exists r0. auto.
  - exists (hh st), r0. split; [destruct st; reflexivity|]. split; [left; reflexivity|exact Hk].
Qed.

Lemma complete_step_spec (st : state) ek ek1 :
  arrays st -> 1 <= kk st <= maxord st -> maxord st <= 5 ->
  (knew st = kk st \/ 2 <= kk st /\ knew st = kk st - 1) ->
  exists st', complete_step prob st ek ek1 = Ret st' /\ completed st st'.
Proof.
  intros Ha Hk Hm Hn.
  assert (Hmid : exists k h r ph, (let st0 := set_nst (nst st + 1) st in
     let st1 := set_hused (hh st0) (set_kused (kk st0) st0) in
     let* km1 := usub (kk st1) 1 in
     let st2 := if (knew st1 =? km1) || (kk st1 =? maxord st1) then set_phase 1 st1 else st1 in
     (if phase st2 =? 0 then
       if 1 <? nst st2 then
         let st := set_kk (kk st2 + 1) st2 in
         Ret (set_hh (doubled st) st)
       else Ret st2
     else
       let* (act, err_kp1) := choose_order prob st2 ek ek1 (kk st0 =? kused st0 + 1) in
       choose_step st2 act ek ek1 err_kp1))
     = Ret (set_hh h (set_rr r (set_kk k (set_phase ph (set_hused (hh st) (set_kused (kk st) (set_nst (nst st + 1) st))))))) /\
     (ph = phase st \/ ph = 1) /\
     (k = kk st \/ (2 <= kk st /\ k = kk st - 1) \/
          (kk st < maxord st /\ k = kk st + 1 /\
           (phase st = 0 /\ 1 <= nst st \/ kk st + 1 < ns st /\ kk st <> kused st + 1))) /\
     (ph = 0 -> phase st = 0 /\ (nst st = 0 -> k = kk st /\ h = hh st) /\
        (nst st <> 0 -> k = kk st + 1 /\ h = dbl (hmax_inv st) (hh st))) /\
     next_h (hmax_inv st) (hh st) h).
  { cbv zeta. set (st1 := set_hused _ _). rewrite usub_ret by (cbn; lia). cbn [bind].
    assert (Hp : exists ph, (if (knew st1 =? kk st1 - 1) || (kk st1 =? maxord st1)
       then set_phase 1 st1 else st1) = set_phase ph st1 /\ (ph = phase st \/ ph = 1) /\
       (ph = 0 -> phase st = 0 /\ kk st <> maxord st)).
    { destruct (knew st1 =? kk st1 - 1) eqn:E1; [|destruct (kk st1 =? maxord st1) eqn:E2]; cbn [orb].
      - exists 1. split; [reflexivity|]. split; [auto|discriminate].
      - exists 1. split; [reflexivity|]. split; [auto|discriminate].
      - exists (phase st). split; [destruct st; reflexivity|]. split; [auto|].
        intros Hz. split; [exact Hz|]. apply Nat.eqb_neq in E2. exact E2. }
    destruct Hp as (ph & -> & Hph & Hph0).
    change (phase (set_phase ph st1)) with ph.
    destruct (Nat.eqb_spec ph 0) as [Ez|Ez].
    - destruct (Hph0 Ez) as (Hz & Hne). subst ph.
      change (nst (set_phase 0 st1)) with (nst st + 1).
      destruct (Nat.ltb_spec 1 (nst st + 1)) as [Hb|Hb].
      + eexists (kk st + 1), _, (rr st), 0. split; [unfold st1; destruct st; reflexivity|].
        split; [auto|]. split; [right; right; repeat split; try lia|].
        split; [split; [exact Hz|split; [lia|split; reflexivity]]|]. right. left. reflexivity.
      + exists (kk st), (hh st), (rr st), 0. split; [unfold st1; destruct st; reflexivity|].
        split; [auto|]. split; [auto|]. split; [split; [exact Hz|split; [auto|lia]]|]. left. reflexivity.
    - destruct (choose_order_spec (set_phase ph st1) ek ek1
         (kk (set_nst (nst st + 1) st) =? kused (set_nst (nst st + 1) st) + 1))
        as (act & e & E & Hact); [exact Ha|exact Hk|exact Hm|exact Hn|].
      rewrite E. cbn [bind]. clear E.
      destruct (choose_step_spec (set_phase ph st1) act ek ek1 e) as (k & h & r & E & Hh & Hkk).
      { intros ->. exact Hact. }
      rewrite E. exists k, h, r, ph. split; [reflexivity|]. split; [exact Hph|].
      split; [|split; [|exact Hh]].
      + destruct act; cbn in Hact, Hkk.
        * right. left. auto.
        * left. exact Hkk.
        * right. right. destruct Hact as (P1 & P2 & P3). split; [exact P1|]. split; [exact Hkk|].
          right. split; [exact P2|]. apply Nat.eqb_neq. exact P3.
      + intros Hz. congruence. }
  destruct Hmid as (k & h & r & ph & E & P1 & P2 & P3 & P4).
  set (stm := set_hh h _) in E.
  destruct (update_phi_spec prob stm) as (phn & E2 & Q1 & Q2 & Q3 & Q4 & Q5).
  { exact Ha. }
  { cbn. lia. }
  { cbn. lia. }
  { cbn. lia. }
  exists (set_phi phn stm). split.
  - unfold complete_step. rewrite <- E2. cbv zeta in E |- *.
    apply bind_ret_inv in E. destruct E as (km1 & Ek & E). rewrite Ek. cbn [bind]. cbn beta in E.
    rewrite E. reflexivity.
  - constructor; try reflexivity; try assumption.
    + destruct Ha as (_ & Ha). split; [exact Q1|exact Ha].
    + intros j Hj [Hm'|Hm'].
      * destruct (Nat.eq_dec j (kk st + 1)) as [->|Hne].
        { apply Q4. exact Hm'. }
        { apply Q5. cbn. lia. }
      * apply Q5. exact Hm'.
Qed.

(** phi and psi after [restore], relative to the state it is given. *)
Definition restored (st1 : state) (ps : list T) (ph : list (list T)) : Prop :=
  length ps = 6 /\ length ph = 6 /\
  (forall i, i < kk st1 -> vget ps i = (vget (psi st1) (i + 1) - hh st1)%sc) /\
  (forall i, kk st1 <= i -> vget ps i = vget (psi st1) i) /\
  (forall i, ns st1 <= i <= kk st1 ->
     row ph i = vscale n (srecip (vget (beta st1) i)) (row (phi st1) i)) /\
  (forall i, i < ns st1 \/ kk st1 < i -> row ph i = row (phi st1) i).

(** What an attempt that is not the last one leaves behind, relative to the
    state [st1] in which the error test failed. *)
Record retried (st1 st' : state) (saved_t : T) (nef : nat) : Prop := mkretried {
  rt_cfg : cfg st' = cfg st1;
  rt_outer : outer st' = outer st1;
  rt_root : rootst st' = rootst st1;
  rt_dvals : dvals st' = dvals st1;
  rt_coef : (alpha st', beta st', sigma st', gamma st') = (alpha st1, beta st1, sigma st1, gamma st1);
  rt_keep : (kused st', knew st', ns st', hused st', cjlast st', ee st', delta st', nst st', ncfn st', nls st')
    = (kused st1, knew st1, ns st1, hused st1, cjlast st1, ee st1, delta st1, nst st1, ncfn st1, nls st1);
  rt_netf : netf st' = netf st1 + 1;
  rt_phase : phase st' = 1;
  rt_nlp : nlp st' = set_tn saved_t (nlp st1);
  rt_kk : kk st' = if nef <=? 1 then knew st1 else 1;
  rt_rr0 : nef = 0 -> exists r, rr st' = smax squarter (smin spt9 r);
  rt_rr1 : 1 <= nef -> rr st' = squarter;
  rt_hh : hh st' = (hh st1 * rr st')%sc;
  rt_arrays : arrays st';
  rt_hist : exists ps ph, restored st1 ps ph /\
    (nst st1 <> 0 -> psi st' = ps /\ phi st' = ph) /\
    (nst st1 = 0 -> psi st' = upd ps 0 (hh st') /\ phi st' = map (vscale n (rr st')) ph) }.

(** What a step that is given up leaves behind, relative to [st1]. *)
Record gave_up (st1 st' : state) (saved_t : T) : Prop := mkgave_up {
  gu_cfg : cfg st' = cfg st1;
  gu_outer : outer st' = outer st1;
  gu_root : rootst st' = rootst st1;
  gu_dvals : dvals st' = dvals st1;
  gu_coef : (alpha st', beta st', sigma st', gamma st') = (alpha st1, beta st1, sigma st1, gamma st1);
  gu_keep : (kk st', kused st', knew st', ns st', hh st', hused st', rr st', nst st', nls st')
    = (kk st1, kused st1, knew st1, ns st1, hh st1, hused st1, rr st1, nst st1, nls st1);
  gu_phase : phase st' = 1;
  gu_nlp : nlp st' = set_tn saved_t (nlp st1);
  gu_arrays : arrays st';
  gu_hist : restored st1 (psi st') (phi st') }.

Lemma handle_testfail (st : state) ek ek1 ncf nef :
  (nef + 1 < maxnef st \/ nef <= 1 ->
   exists r, handle_n_flag st (EIda TestFail) ek ek1 ncf nef =
     Ret (set_hh (hh st * r)%sc (set_rr r (set_kk (if nef <=? 1 then knew st else 1)
            (set_netf (netf st + 1) (set_phase 1 st)))), ncf, nef + 1, Ok tt) /\
     (nef = 0 -> exists q, r = smax squarter (smin spt9 q)) /\ (1 <= nef -> r = squarter)) /\
  (maxnef st <= nef + 1 -> 2 <= nef ->
   handle_n_flag st (EIda TestFail) ek ek1 ncf nef =
     Ret (set_netf (netf st + 1) (set_phase 1 st), ncf, nef + 1, Err EFmt)).
Proof.
  unfold handle_n_flag. split; intros Hn.
  - destruct (Nat.eqb_spec (nef + 1) 1) as [E1|E1].
    { assert (nef = 0) by lia. subst nef. cbn [Nat.leb]. eexists. split; [reflexivity|].
      split; [eauto|lia]. }
    destruct (Nat.eqb_spec (nef + 1) 2) as [E2|E2].
    { assert (nef = 1) by lia. subst nef. cbn [Nat.leb]. eexists. split; [reflexivity|].
      split; [lia|auto]. }
    destruct (Nat.leb_spec nef 1); [lia|].
    cbv zeta. change (maxnef (set_netf _ _)) with (maxnef st).
    destruct (Nat.ltb_spec (nef + 1) (maxnef st)); [|lia].
    eexists. split; [reflexivity|]. split; [lia|auto].
  - intros H2'. destruct (Nat.eqb_spec (nef + 1) 1); [lia|].
    destruct (Nat.eqb_spec (nef + 1) 2); [lia|].
    cbv zeta. change (maxnef (set_netf _ _)) with (maxnef st).
    destruct (Nat.ltb_spec (nef + 1) (maxnef st)); [lia|]. reflexivity.
Qed.

Lemma nth_map_row (f : list T -> list T) ph i : i < length ph -> row (map f ph) i = f (row ph i).
Proof.
  intros Hi. unfold row. rewrite (nth_indep _ [] (f [])) by (rewrite map_length; exact Hi).
  apply map_nth.
Qed.

(** The states involved, in closed form. *)
Definition st_restored (t : T) ps cv ph (st1 : state) : state :=
  set_phi ph (set_cvals cv (set_psi ps (on_nlp (set_tn t) st1))).
Definition st_retry k r (st2 : state) : state :=
  set_hh (hh st2 * r)%sc (set_rr r (set_kk k (set_netf (netf st2 + 1) (set_phase 1 st2)))).

Lemma retried_later (st1 : state) t ps cv ph r nef :
  nst st1 <> 0 -> arrays st1 -> length cv = 6 -> restored st1 ps ph ->
  (nef = 0 -> exists q, r = smax squarter (smin spt9 q)) -> (1 <= nef -> r = squarter) ->
  retried st1 (st_retry (if nef <=? 1 then knew st1 else 1) r (st_restored t ps cv ph st1)) t nef.
Proof.
  intros Hz Ha Hc Hr H0' H1'.
  assert (Ha' : arrays (st_retry (if nef <=? 1 then knew st1 else 1) r (st_restored t ps cv ph st1))).
  { destruct Ha as (B1 & B2 & B3 & B4 & B5 & B6 & B7 & B8), Hr as (R1 & R2 & _).
    destruct st1. cbn in *. repeat split; assumption. }
  assert (Hh : exists ps0 ph0, restored st1 ps0 ph0 /\
    (nst st1 <> 0 -> ps = ps0 /\ ph = ph0) /\
    (nst st1 = 0 -> ps = upd ps0 0 (hh st1 * r)%sc /\ ph = map (vscale n r) ph0)).
  { exists ps, ph. split; [exact Hr|]. split; [auto|intros; congruence]. }
  destruct st1. constructor; first [exact Ha'|exact Hh|exact H0'|exact H1'|reflexivity].
Qed.

Lemma retried_first (st1 : state) t ps cv ph r nef :
  nst st1 = 0 -> arrays st1 -> length cv = 6 -> restored st1 ps ph ->
  (nef = 0 -> exists q, r = smax squarter (smin spt9 q)) -> (1 <= nef -> r = squarter) ->
  let st2 := st_retry (if nef <=? 1 then knew st1 else 1) r (st_restored t ps cv ph st1) in
  retried st1 (set_phi (map (vscale n r) ph) (set_psi (upd ps 0 (hh st1 * r)%sc) st2)) t nef.
Proof.
  intros Hz Ha Hc Hr H0' H1'. cbv zeta.
  match goal with |- retried _ ?s _ _ => assert (Ha' : arrays s) end.
  { destruct Ha as (B1 & B2 & B3 & B4 & B5 & B6 & B7 & B8), Hr as (R1 & R2 & _).
    destruct st1. unfold arrays. cbn in *. rewrite map_length, upd_length. repeat split; assumption. }
  assert (Hh : exists ps0 ph0, restored st1 ps0 ph0 /\
    (nst st1 <> 0 -> upd ps 0 (hh st1 * r)%sc = ps0 /\ map (vscale n r) ph = ph0) /\
    (nst st1 = 0 -> upd ps 0 (hh st1 * r)%sc = upd ps0 0 (hh st1 * r)%sc /\
       map (vscale n r) ph = map (vscale n r) ph0)).
  { exists ps, ph. split; [exact Hr|]. split; [intros; congruence|auto]. }
  destruct st1. constructor; first [exact Ha'|exact Hh|exact H0'|exact H1'|reflexivity].
Qed.

Lemma gave_up_intro (st1 : state) t ps cv ph f c :
  arrays st1 -> length cv = 6 -> restored st1 ps ph ->
  gave_up st1 (set_ncfn c (set_netf f (set_phase 1 (st_restored t ps cv ph st1)))) t.
Proof.
  intros Ha Hc Hr.
  match goal with |- gave_up _ ?s _ => assert (Ha' : arrays s) end.
  { destruct Ha as (B1 & B2 & B3 & B4 & B5 & B6 & B7 & B8), Hr as (R1 & R2 & _).
    destruct st1. cbn in *. repeat split; assumption. }
  destruct st1. constructor; first [exact Ha'|exact Hr|reflexivity].
Qed.

Lemma handle_testfail_retry (st2 : state) ek ek1 ncf nef :
  nef + 1 < maxnef st2 \/ nef <= 1 ->
  exists r, handle_n_flag st2 (EIda TestFail) ek ek1 ncf nef =
     Ret (st_retry (if nef <=? 1 then knew st2 else 1) r st2, ncf, nef + 1, Ok tt) /\
     (nef = 0 -> exists q, r = smax squarter (smin spt9 q)) /\ (1 <= nef -> r = squarter).
Proof. intros Hn. exact (proj1 (handle_testfail st2 ek ek1 ncf nef) Hn). Qed.

Lemma reset_retry (st2 : state) k r :
  length (psi st2) = 6 ->
  reset prob (st_retry k r st2) =
    Ret (set_phi (map (vscale n r) (phi st2)) (set_psi (upd (psi st2) 0 (hh st2 * r)%sc) (st_retry k r st2))).
Proof. intros L. unfold reset. rewrite aset_ret by (cbn; lia). reflexivity. Qed.

Lemma restored_fields (st1 : state) t ps cv ph :
  let st2 := st_restored t ps cv ph st1 in
  maxnef st2 = maxnef st1 /\ knew st2 = knew st1 /\ nst st2 = nst st1 /\ netf st2 = netf st1 /\
  ncfn st2 = ncfn st1 /\ psi st2 = ps /\ phi st2 = ph /\ hh st2 = hh st1.
Proof. repeat split. Qed.

Lemma retry_fields k r (st2 : state) : nst (st_retry k r st2) = nst st2.
Proof. reflexivity. Qed.

(** After a failed attempt. *)
Lemma handle_testfail_stop (st1 : state) t ps cv ph ek ek1 ncf nef :
  maxnef st1 <= nef + 1 -> 2 <= nef ->
  handle_n_flag (st_restored t ps cv ph st1) (EIda TestFail) ek ek1 ncf nef =
    Ret (set_ncfn (ncfn st1) (set_netf (netf st1 + 1) (set_phase 1 (st_restored t ps cv ph st1))),
         ncf, nef + 1, Err EFmt).
Proof.
  intros Hm H2'. rewrite (proj2 (handle_testfail _ ek ek1 ncf nef)) by assumption.
  destruct st1; reflexivity.
Qed.

Lemma handle_nls (st1 : state) t ps cv ph m ek ek1 ncf nef :
  handle_n_flag (st_restored t ps cv ph st1) (ENls m) ek ek1 ncf nef =
    Ret (set_ncfn (ncfn st1 + 1) (set_netf (netf st1) (set_phase 1 (st_restored t ps cv ph st1))),
         ncf + 1, nef, Err (ENls m)).
Proof. destruct st1; reflexivity. Qed.

Lemma gave_up_counts (st1 : state) t ps cv ph f c :
  let st' := set_ncfn c (set_netf f (set_phase 1 (st_restored t ps cv ph st1))) in
  netf st' = f /\ ncfn st' = c.
Proof. split; reflexivity. Qed.

Lemma bind_ret {A B} (a : A) (k : A -> outcome B) : bind (Ret a) k = k a.
Proof. reflexivity. Qed.

Lemma after_failure (st1 st' : state) saved_t ps cv ph e ek ek1 ncf nef ncf' nef' r :
  arrays st1 -> length cv = 6 -> restored st1 ps ph ->
  (e = EIda TestFail \/ exists m, e = ENls m) ->
  (let* (st, ncf, nef, r) := handle_n_flag (st_restored saved_t ps cv ph st1) e ek ek1 ncf nef in
   match r with
   | Err e => Ret (st, ncf, nef, Err e)
   | Ok _ =>
       let* st := (if nst st =? 0 then reset prob st else Ret st) in
       Ret (st, ncf, nef, Ok (@None (T * T * T)))
   end) = Ret (st', ncf', nef', r) ->
  ncf <= ncf' /\
  ((e = EIda TestFail /\ (nef + 1 < maxnef st1 \/ nef <= 1) /\ retried st1 st' saved_t nef /\
        nef' = nef + 1 /\ ncf' = ncf /\ r = Ok None) \/
   (gave_up st1 st' saved_t /\
        (e = EIda TestFail /\ maxnef st1 <= nef + 1 /\ 2 <= nef /\ r = Err EFmt /\
           netf st' = netf st1 + 1 /\ ncfn st' = ncfn st1 \/
         (exists m, e = ENls m) /\ r = Err e /\ netf st' = netf st1 /\ ncfn st' = ncfn st1 + 1))).
Proof.
  intros Ha Hc Hr He E.
  destruct (restored_fields st1 saved_t ps cv ph) as (F1 & F2 & F3 & F4 & F5 & F6 & F7 & F8).
  destruct He as [->|(m & ->)].
  - assert (Hd : (nef + 1 < maxnef st1 \/ nef <= 1) \/ (maxnef st1 <= nef + 1 /\ 2 <= nef)) by lia.
    destruct Hd as [Hd|(Hd & Hd2)].
    + destruct (handle_testfail_retry (st_restored saved_t ps cv ph st1) ek ek1 ncf nef)
        as (rn & HA & P1 & P2); [rewrite F1; exact Hd|].
      rewrite HA in E. rewrite bind_ret in E. clear HA. rewrite F2 in E. rewrite retry_fields, F3 in E.
      pose proof (retried_first st1 saved_t ps cv ph rn nef) as RF. cbv zeta in RF.
      pose proof (retried_later st1 saved_t ps cv ph rn nef) as RL.
      pose proof (reset_retry (st_restored saved_t ps cv ph st1) (if nef <=? 1 then knew st1 else 1) rn) as RR.
      rewrite F6, F7, F8 in RR.
      generalize dependent (st_retry (if nef <=? 1 then knew st1 else 1) rn (st_restored saved_t ps cv ph st1)).
      intros sq E RF RL RR.
      destruct (Nat.eqb_spec (nst st1) 0) as [Hz|Hz].
      * rewrite RR in E by apply Hr. rewrite bind_ret in E.
        generalize dependent (set_phi (map (vscale n rn) ph) (set_psi (upd ps 0 (hh st1 * rn)%sc) sq)).
        intros sq' E RF _. injection E as <- <- <- <-. split; [lia|]. left. split; [reflexivity|]. split; [exact Hd|].
        split; [apply RF; assumption|auto].
      * rewrite bind_ret in E. injection E as <- <- <- <-. split; [lia|]. left. split; [reflexivity|].
        split; [exact Hd|]. split; [apply RL; assumption|auto].
    + rewrite handle_testfail_stop in E by assumption. rewrite bind_ret in E.
      destruct (gave_up_counts st1 saved_t ps cv ph (netf st1 + 1) (ncfn st1)) as (G1 & G2).
      pose proof (gave_up_intro st1 saved_t ps cv ph (netf st1 + 1) (ncfn st1) Ha Hc Hr) as G3.
      generalize dependent (set_ncfn (ncfn st1) (set_netf (netf st1 + 1) (set_phase 1 (st_restored saved_t ps cv ph st1)))).
      intros sq E G1 G2 G3. injection E as <- <- <- <-. split; [lia|]. right.
      split; [exact G3|]. left. auto 10.
  - rewrite handle_nls in E. rewrite bind_ret in E.
    destruct (gave_up_counts st1 saved_t ps cv ph (netf st1) (ncfn st1 + 1)) as (G1 & G2).
    pose proof (gave_up_intro st1 saved_t ps cv ph (netf st1) (ncfn st1 + 1) Ha Hc Hr) as G3.
    generalize dependent (set_ncfn (ncfn st1 + 1) (set_netf (netf st1) (set_phase 1 (st_restored saved_t ps cv ph st1)))).
    intros sq E G1 G2 G3. injection E as <- <- <- <-. split; [lia|]. right.
    split; [exact G3|]. right. split; [eauto|]. auto.
Qed.

(** One attempt: accepted, to be retried after an error-test failure, or
    given up. *)
Lemma attempt_spec (Hl : nls_lawful) (st st' : state) saved_t ncf nef ncf' nef' r :
  arrays st -> kk st <= 5 ->
  attempt_step prob st saved_t ncf nef = Ret (st', ncf', nef', r) ->
  exists st1 ck ek ek1 r1,
    try_step prob st = Ret (st1, ck, ek, ek1, r1) /\ tried st st1 ck r1 /\ ncf <= ncf' /\
    ((r1 = Ok tt /\ st' = st1 /\ nef' = nef /\ r = Ok (Some (ck, ek, ek1))) \/
     (r1 = Err (EIda TestFail) /\ (nef + 1 < maxnef st \/ nef <= 1) /\ retried st1 st' saved_t nef /\
        nef' = nef + 1 /\ ncf' = ncf /\ r = Ok None) \/
     (exists e, r1 = Err e /\ gave_up st1 st' saved_t /\
        (e = EIda TestFail /\ maxnef st <= nef + 1 /\ 2 <= nef /\ r = Err EFmt /\
           netf st' = netf st1 + 1 /\ ncfn st' = ncfn st1 \/
         (exists m, e = ENls m) /\ r = Err e /\ netf st' = netf st1 /\ ncfn st' = ncfn st1 + 1))).
Proof.
  intros Ha Hk E. unfold attempt_step in E.
  apply bind_ret_inv in E. destruct E as (((((st1 & ck) & ek) & ek1) & r1) & E1 & E). cbv beta iota in E.
  pose proof (try_step_spec Hl _ _ _ _ _ _ Ha Hk E1) as Ht.
  exists st1, ck, ek, ek1, r1. split; [exact E1|]. split; [exact Ht|].
  destruct r1 as [[]|e].
  { injection E as <- <- <- <-. split; [lia|]. left. auto. }
  assert (A1 : arrays st1) by apply Ht.
  assert (K1 : kk st1 = kk st) by (pose proof (tr_ord _ _ _ _ Ht); congruence).
  assert (N1 : 1 <= ns st1).
  { destruct (tr_coeffs _ _ _ _ Ht) as (-> & _). unfold ns_next.
    destruct (sneqb _ _ || _); lia. }
  assert (M1 : maxnef st1 = maxnef st).
  { pose proof (cfg_fields _ _ (tr_cfg _ _ _ _ Ht)) as (_ & _ & _ & _ & _ & _ & Hm & _). exact Hm. }
  destruct (restore_spec prob st1 saved_t) as (ps & cv & ph & E2 & R1 & R2 & R3 & R4 & R5 & R6 & R7);
    [exact A1|lia|exact N1|].
  rewrite E2 in E. clear E2. fold (st_restored saved_t ps cv ph st1) in E.
  assert (Hres : restored st1 ps ph) by (unfold restored; auto 10).
  assert (He : e = EIda TestFail \/ exists m, e = ENls m).
  { pose proof (tr_res _ _ _ _ Ht) as Hr. destruct e as [e|e|]; [destruct e; try contradiction; auto|eauto|contradiction]. }
  destruct (after_failure _ _ _ _ _ _ _ _ _ _ _ _ _ _ A1 R2 Hres He E) as (Hn & Hc).
  rewrite M1 in Hc. split; [exact Hn|]. right.
  destruct Hc as [(-> & Hc)|(Hg & Hc)]; [left; auto|right; eauto].
Qed.

(** Induction over the attempts of one step. *)
Lemma step_loop_ind (Hl : nls_lawful) (I : state -> nat -> Prop) saved_t :
  (forall st nef, I st nef -> arrays st /\ kk st <= 5) ->
  (forall st nef st1 ck ek ek1 st', I st nef ->
     try_step prob st = Ret (st1, ck, ek, ek1, Err (EIda TestFail)) ->
     tried st st1 ck (Err (EIda TestFail)) ->
     (nef + 1 < maxnef st \/ nef <= 1) -> retried st1 st' saved_t nef -> I st' (nef + 1)) ->
  forall fuel st ncf nef st' r,
  I st nef -> step_loop prob fuel st saved_t ncf nef = Ret (st', r) ->
  exists sta nefa st1 ck ek ek1 r1,
    I sta nefa /\ nef <= nefa /\
    try_step prob sta = Ret (st1, ck, ek, ek1, r1) /\ tried sta st1 ck r1 /\
    ((r1 = Ok tt /\ st' = st1 /\ r = Ok (ck, ek, ek1)) \/
     (exists e, r1 = Err e /\ gave_up st1 st' saved_t /\
        (e = EIda TestFail /\ maxnef sta <= nefa + 1 /\ 2 <= nefa /\ r = Err EFmt /\
           netf st' = netf st1 + 1 /\ ncfn st' = ncfn st1 \/
         (exists m, e = ENls m) /\ r = Err e /\ netf st' = netf st1 /\ ncfn st' = ncfn st1 + 1))).
Proof.
  intros HA HR. induction fuel as [|fuel IH]; intros st ncf nef st' r HI E; [discriminate|].
  cbn [step_loop] in E. apply bind_ret_inv in E.
  destruct E as ((((st2 & ncf2) & nef2) & r2) & E1 & E). cbv beta iota in E.
  destruct (HA _ _ HI) as (Ha & Hk).
  destruct (attempt_spec Hl _ _ _ _ _ _ _ _ Ha Hk E1) as
    (st1 & ck & ek & ek1 & r1 & Et & Ht & Hncf & Hc).
  destruct Hc as [(-> & -> & -> & ->)|[(-> & Hm & Hrt & -> & -> & ->)|(e & -> & Hg & Hc)]].
  - injection E as <- <-. exists st, nef, st1, ck, ek, ek1, (Ok tt). auto 12.
  - destruct (IH _ _ _ _ _ (HR _ _ _ _ _ _ _ HI Et Ht Hm Hrt) E) as
      (sta & nefa & st1' & ck' & ek' & ek1' & r1' & P1 & P2 & P3).
    exists sta, nefa, st1', ck', ek', ek1', r1'. split; [exact P1|]. split; [lia|]. exact P3.
  - destruct Hc as [(-> & Q1 & Q2 & -> & Q3)|(Hm & -> & Q3)];
      injection E as <- <-.
    + exists st, nef, st1, ck, ek, ek1, (Err (EIda TestFail)).
      do 4 (split; [auto|]). right. eexists. split; [reflexivity|]. split; [exact Hg|]. left. auto.
    + exists st, nef, st1, ck, ek, ek1, (Err e).
      do 4 (split; [auto|]). right. eexists. split; [reflexivity|]. split; [exact Hg|]. right. auto.
Qed.

End Step.
