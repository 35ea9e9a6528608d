(** * PropConserve: linear constraints and conserved quantities (C74)
      (src/lib.rs 787-890, src/ida_nls.rs, src/ida_ls.rs, crates/linear/src/dense.rs) *)
Require Import List Arith Bool Lia Reals Lra.
Import ListNotations.
Require Import Verif.Base Verif.Scalar Verif.ScalarR Verif.Dense Verif.RSum Verif.DenseSpec Verif.Norms Verif.VecR
  Verif.Newton Verif.NewtonSpec Verif.IdaState Verif.IdaNls Verif.IdaCore Verif.IdaRoots Verif.IdaSolve Verif.BaseFacts
  Verif.NewtonFacts Verif.IdaFacts Verif.IdaLoops Verif.IdaStep Verif.IdaSpec Verif.IdaShell Verif.IdaReach Verif.IdaInv
  Verif.IdaCount Verif.IdaLife Verif.IdaTrace Verif.IdaAccept Verif.IdaStepR Verif.IdaLinear Verif.IdaInterp Verif.IdaIo Verif.Samples.
Open Scope R_scope.

(** No error test failed before the first step was accepted. *)
Definition clean {T} (tr : list (event T)) : Prop :=
  every (fun e past => is_fail e = true -> steps past <> []) tr.

Lemma steps_in {T} (tr : list (event T)) a : In a (steps tr) -> exists t, In (CStep t (a_y a)) tr.
Proof.
  induction tr as [|e tr IH]; [intros []|]. intros Ha.
  assert (X : In a (steps tr) -> exists t, In (CStep t (a_y a)) (e :: tr)).
  { intros Hi. destruct (IH Hi) as (t & Ht). exists t. right. exact Ht. }
  destruct e; cbn [steps] in Ha; auto.
  destruct (last_try tr) as [((t0 & h) & k)|]; [|auto]. destruct Ha as [<-|Ha]; [|auto]. eexists. left. reflexivity.
Qed.

Section Conserve.
Context {LSt : Type} `{LSolver R LSt}.
Variable prob : problem R.
Variable ewt_set : list R -> list R.
Variable fuel : nat.
Instance newton_here : NLSolver R (newton R) := NewtonNLS fuel.
Notation n := (model_size prob).
Notation state := (ida R LSt (newton R)).
Notation tr st := (trace (lp (nlp st))).
Variable okls : LSt -> Prop.
Hypothesis Hls : exact_ls n okls.
Hypothesis Hn : (1 <= n)%nat.
Variables (w c : nat -> R) (al be d : R).
Hypothesis Hres : forall t, respects_at prob w c al be d t.
Hypothesis Hjac : jac_respects prob w c al be.
Hypothesis Hab : be = 0 /\ al <> 0 \/ al = 0 /\ be <> 0.
Variable g : @config R.
Hypothesis Hg : config_ok g.
Variables yy0 yp0 : list R.
Hypothesis Hy0 : dot n c yy0 = d.
Hypothesis Hyp0 : dot n c yp0 = 0.
Notation Hl := (newton_lawful fuel).

Lemma nonlinear_plane (st st' : state) r :
  dot n c (yypredict (nlp st)) = d -> dot n c (yppredict (nlp st)) = 0 ->
  okls (lp_ls (lp (nlp st))) -> (nst st <> 0%nat -> neutral prob w c (lp (nlp st))) ->
  al + be * cj (lp (nlp st)) <> 0 ->
  nonlinear_solve prob st = Ret (st', r) ->
  okls (lp_ls (lp (nlp st'))) /\ neutral prob w c (lp (nlp st')) /\
  (exists evs, tr st' = evs ++ tr st /\ Forall (good_ev prob c d) evs) /\
  (r = Ok tt -> dot n c (ee st') = 0).
Proof.
  intros P1 P2 O K L E. unfold nonlinear_solve in E. destruct (nls_prepare st) as (sp & call) eqn:Ep.
  assert (X : yypredict (nlp sp) = yypredict (nlp st) /\ yppredict (nlp sp) = yppredict (nlp st) /\
    lp_ls (lp (nlp sp)) = lp_ls (lp (nlp st)) /\ lp_matj (lp (nlp sp)) = lp_matj (lp (nlp st)) /\
    cj (lp (nlp sp)) = cj (lp (nlp st)) /\ tr sp = tr st /\ (call = false -> nst st <> 0%nat)).
  { unfold nls_prepare in Ep. cbv zeta in Ep. pose proof (f_equal fst Ep) as E1. pose proof (f_equal snd Ep) as E2.
    cbn [fst snd] in E1, E2. clear Ep. rewrite <- E1. repeat split; try (destruct (sneqb _ _); destruct (nst st =? 0)%nat; reflexivity).
    intros Hc Hz. rewrite Hc, Hz in E2. discriminate. }
  clear Ep. destruct X as (X1 & X2 & X3 & X4 & X5 & X6 & X7).
  cbn [nls_setup newton_here NewtonNLS bind] in E. cbv zeta in E.
  apply bind_ret_inv in E. destruct E as ((((nw' & x) & eev) & r4) & E4 & E). cbv beta iota in E.
  cbn [nls_solve newton_here NewtonNLS] in E4. unfold newton_solve in E4.
  match type of E4 with outer_loop _ _ _ _ _ _ _ _ _ ?s _ = _ => change s with (nlp sp) in E4 end.
  match type of E4 with outer_loop _ _ _ ?y _ _ _ _ _ _ _ = _ => change y with (@vzero R _ n) in E4 end.
  assert (A : on_plane prob okls c d (cj (lp (nlp st))) (tr st) (nlp sp)).
  { constructor; [congruence|congruence|exact X5|congruence|]. exists []. rewrite X6. split; [reflexivity|constructor]. }
  assert (C : call = true \/ neutral prob w c (lp (nlp sp))).
  { destruct call; [left; reflexivity|right]. specialize (K (X7 eq_refl)). unfold neutral in *. rewrite X3, X4. exact K. }
  apply (outer_plane prob okls Hls Hn w c al be d Hres Hjac _ _ L _ _ _ _ _ _ _ _ _ _ _ _ _ A C (dot_vzero _ _ _)) in E4.
  destruct E4 as ([_ _ _ B4 B5] & K2 & D2).
  destruct r4 as [[]|e].
  - destruct (constraints_set _) in E; [discriminate|]. apply ret_inj in E.
    pose proof (f_equal (fun q => lp (nlp (fst q))) E) as E1. pose proof (f_equal (fun q => ee (fst q)) E) as E2.
    cbn [fst] in E1, E2. rewrite <- E1, <- E2. split; [exact B4|]. split; [exact K2|]. split; [exact B5|]. intros _. exact (D2 eq_refl).
  - apply ret_inj in E.
    pose proof (f_equal (fun q => lp (nlp (fst q))) E) as E1. pose proof (f_equal snd E) as E2.
    cbn [fst snd] in E1, E2. rewrite <- E1. split; [exact B4|]. split; [exact K2|]. split; [exact B5|]. rewrite <- E2. discriminate.
Qed.

(** The history lies on the plane. *)
Definition flat (ph : list (list R)) : Prop :=
  dot n c (row ph 0) = d /\ forall j, (1 <= j)%nat -> dot n c (row ph j) = 0.

Record planar (st : state) : Prop := {
  pl_ls : okls (lp_ls (lp (nlp st)));
  pl_flat : flat (phi st);
  pl_neutral : nst st <> 0%nat -> neutral prob w c (lp (nlp st));
  pl_tr : Forall (good_ev prob c d) (tr st) }.

Lemma asum_R k : asum k = - rsum k (fun i => / INR (i + 1)).
Proof.
  induction k as [|k IH]; [cbn; ring|]. cbn [asum rsum]. rewrite IH. cbn [ssub sdiv sone sofnat ScalarR].
  unfold Rdiv. ring.
Qed.

Lemma rsum_pos k f : (1 <= k)%nat -> (forall i, 0 < f i) -> 0 < rsum k f.
Proof.
  intros Hk Hf. destruct k as [|k]; [lia|]. clear Hk. induction k as [|k IH]; cbn in *; [specialize (Hf 0%nat); lra|].
  specialize (Hf (S k)). lra.
Qed.

Lemma cj_ok (st : state) : (1 <= kk st)%nat -> hh st <> 0 -> al + be * cj_of st <> 0.
Proof.
  intros Hk Hh. destruct Hab as [(-> & Ha)|(-> & Hb)]; [lra|].
  assert (Q : cj_of st <> 0).
  { unfold cj_of. cbn [sneg sdiv ScalarR]. rewrite asum_R. unfold Rdiv.
    assert (0 < rsum (kk st) (fun i => / INR (i + 1))).
    { apply rsum_pos; [exact Hk|]. intros i. apply Rinv_0_lt_compat, lt_0_INR. lia. }
    intros Q. apply Rmult_integral in Q. destruct Q as [Q|Q]; [lra|].
    apply Rinv_neq_0_compat in Hh. contradiction. }
  intros Z. rewrite Rplus_0_l in Z. apply Rmult_integral in Z. destruct Z; contradiction.
Qed.

(** ** One attempt *)
Lemma rsum_zero k f : (forall i, (i < k)%nat -> f i = 0) -> rsum k f = 0.
Proof. intros Hf. induction k as [|k IH]; [reflexivity|]. cbn. rewrite IH, Hf; [ring|lia|intros; apply Hf; lia]. Qed.

Lemma flat_sum ph k : flat ph -> dot n c (rowsum prob ph (S k)) = d.
Proof.
  intros (F0 & F1). rewrite dot_rowsum. clear Hn. induction k as [|k IH]; cbn [rsum] in *; [lra|]. rewrite IH, F1 by lia. ring.
Qed.

Lemma flat_comb1 g0 ph k : flat ph -> dot n c (rowcomb1 prob g0 ph k) = 0.
Proof. intros (_ & F1). rewrite dot_rowcomb1. apply rsum_zero. intros i _. rewrite F1 by lia. ring. Qed.

Lemma flat_tail e ph j k : flat ph -> dot n c e = 0 -> (1 <= j)%nat -> dot n c (tailsum prob e ph j k) = 0.
Proof. intros (_ & F1) He Hj. rewrite dot_tailsum, He, rsum_zero; [ring|]. intros i _. apply F1. lia. Qed.

Lemma flat_tail0 e ph k : flat ph -> dot n c e = 0 -> dot n c (tailsum prob e ph 0 (S k)) = d.
Proof.
  intros F He. rewrite dot_tailsum, He, Rplus_0_l. rewrite <- (flat_sum ph k F), dot_rowsum. reflexivity.
Qed.

Lemma flat_coeffs (st st' : state) : (1 <= kk st)%nat -> coeffs_step prob st st' -> flat (phi st) -> flat (phi st').
Proof.
  intros Hk (C1 & _ & _ & C4 & C5) (F0 & F1). assert (N0 : (1 <= ns st')%nat) by (rewrite C1; unfold ns_next; lia).
  split; [rewrite C5 by lia; exact F0|]. intros j Hj.
  destruct (le_lt_dec (ns st') j) as [L|L]; [destruct (le_lt_dec j (kk st)) as [M|M]|].
  - rewrite C4 by lia. rewrite dot_vscale, F1 by exact Hj. ring.
  - rewrite C5 by lia. apply F1, Hj.
  - rewrite C5 by lia. apply F1, Hj.
Qed.

Lemma flat_restored (st1 : state) ps ph : (1 <= ns st1)%nat -> restored prob st1 ps ph -> flat (phi st1) -> flat ph.
Proof.
  intros Hk (_ & _ & _ & _ & R4 & R5) (F0 & F1). split; [rewrite R5 by lia; exact F0|]. intros j Hj.
  destruct (le_lt_dec (ns st1) j) as [L|L]; [destruct (le_lt_dec j (kk st1)) as [M|M]|].
  - rewrite R4 by lia. rewrite dot_vscale, F1 by exact Hj. ring.
  - rewrite R5 by lia. apply F1, Hj.
  - rewrite R5 by lia. apply F1, Hj.
Qed.

Lemma try_plane (st st1 : state) ck ek ek1 r :
  (1 <= kk st)%nat -> hh st <> 0 ->
  try_step prob st = Ret (st1, ck, ek, ek1, r) -> tried prob st st1 ck r ->
  planar st ->
  okls (lp_ls (lp (nlp st1))) /\ flat (phi st1) /\ neutral prob w c (lp (nlp st1)) /\ Forall (good_ev prob c d) (tr st1) /\
  (r = Ok tt -> dot n c (ee st1) = 0).
Proof.
  intros Hk Hh E Htr [P1 P2 P3 P4]. pose proof (flat_coeffs _ _ Hk (tr_coeffs _ _ _ _ _ Htr) P2) as Fl.
  pose proof (tr_cj _ _ _ _ _ Htr) as Hcj. pose proof (tr_yyp _ _ _ _ _ Htr) as Y1. pose proof (tr_ypp _ _ _ _ _ Htr) as Y2.
  assert (D1 : dot n c (yypredict (nlp st1)) = d).
  { rewrite Y1. replace (kk st + 1)%nat with (S (kk st)) by lia. apply flat_sum, Fl. }
  assert (D2 : dot n c (yppredict (nlp st1)) = 0) by (rewrite Y2; apply flat_comb1, Fl).
  clear Htr Y1 Y2. pose proof (cj_ok st Hk Hh) as Hc0. rewrite <- Hcj in Hc0. clear Hcj.
  unfold try_step in E. set (sx := on_lp (push_ev (CTry (tn (nlp st)) (hh st) (kk st))) st) in E.
  apply bind_ret_inv in E as ((s1 & c1) & E1 & E). apply bind_ret_inv in E as (s2 & E2 & E).
  apply bind_ret_inv in E as ((s3 & r3) & E3 & E). cbv beta iota in E.
  assert (X1 : tr s2 = CTry (tn (nlp st)) (hh st) (kk st) :: tr st /\ nst s2 = nst st /\
     lp_ls (lp (nlp s2)) = lp_ls (lp (nlp st)) /\ lp_matj (lp (nlp s2)) = lp_matj (lp (nlp st))).
  { destruct (set_coeffs_frame _ _ _ _ E1) as (_ & _ & _ & _ & _ & _ & _ & N1 & N2).
    destruct (predict_frame _ _ _ E2) as (_ & _ & _ & _ & _ & M1 & M2). rewrite advance_tn_eq in M1, M2.
    rewrite M2. change (nlp (on_nlp (set_tn (tn_next s1)) s1)) with (set_tn (tn_next s1) (nlp s1)). rewrite N2.
    split; [reflexivity|]. split; [|split; reflexivity].
    assert (nst s2 = nst s1) by (unfold stepst in M1; change (nst (on_nlp (set_tn (tn_next s1)) s1)) with (nst s1) in M1; congruence).
    assert (nst s1 = nst sx) by congruence. change (nst sx) with (nst st) in *. congruence. }
  destruct X1 as (X1 & X2 & X3 & X4). clear E1 E2 sx.
  assert (X5 : tr st1 = match r3 with Ok _ => (match r with Ok _ => [] | Err _ => [CFail] end) | Err _ => [] end ++ tr s3 /\
     cj (lp (nlp st1)) = cj (lp (nlp s3)) /\ lp_ls (lp (nlp st1)) = lp_ls (lp (nlp s3)) /\
     lp_matj (lp (nlp st1)) = lp_matj (lp (nlp s3)) /\ yypredict (nlp st1) = yypredict (nlp s3) /\
     yppredict (nlp st1) = yppredict (nlp s3) /\ (r = Ok tt -> r3 = Ok tt /\ ee st1 = ee s3)).
  { destruct r3 as [[]|e].
    - apply bind_ret_inv in E as ((((s4 & ek') & ek1') & r4) & E4 & E). cbv beta iota in E. injection E as <- _ _ _ <-.
      destruct (test_error_frame _ _ _ _ _ _ _ E4) as (_ & _ & _ & _ & _ & _ & _ & F8 & _ & _ & Fr).
      assert (ee s4 = ee s3) by congruence.
      destruct r4 as [u'|e]; [destruct Fr as (_ & ->); auto 10|destruct Fr as (_ & _ & ->); auto 10].
    - injection E as <- _ _ _ <-. repeat split; try reflexivity; discriminate. }
  clear E. destruct X5 as (X5 & X6 & X7 & X8 & X9 & X10 & X11).
  destruct (nonlinear_solve_frame prob Hl _ _ _ E3) as (_ & _ & _ & _ & _ & _ & _ & _ & _ & Kp & _).
  unfold nlpkeep in Kp. 
  assert (Q : yypredict (nlp s2) = yypredict (nlp s3) /\ yppredict (nlp s2) = yppredict (nlp s3) /\ cj (lp (nlp s2)) = cj (lp (nlp s3)))
    by (repeat split; congruence).
  destruct Q as (Q1 & Q2 & Q3).
  apply nonlinear_plane in E3.
  - destruct E3 as (A1 & A2 & (evs & A3 & A4) & A5). rewrite X7. split; [exact A1|]. split; [exact Fl|].
    split; [unfold neutral in *; rewrite X7, X8; exact A2|]. split.
    + rewrite X5, A3, X1. repeat (apply Forall_app; split); [destruct r3; [destruct r|]; repeat constructor|exact A4|].
      constructor; [exact I|exact P4].
    + intros Hr. destruct (X11 Hr) as (R3 & ->). exact (A5 R3).
  - congruence.
  - congruence.
  - rewrite X3. exact P1.
  - rewrite X2. intros Hz. specialize (P3 Hz). unfold neutral in *. rewrite X3, X4. exact P3.
  - rewrite Q3, <- X6. exact Hc0.
Qed.

(** ** The whole life *)
Definition CJ (o : option (R * nat)) (st : state) : Prop :=
  J prob g o st /\ (d = 0 \/ clean (tr st) -> planar st).

Lemma clean_past (evs past : list (event R)) : clean (evs ++ past) -> clean past.
Proof. apply every_past. Qed.

Lemma planar_ext (a b : state) : lp_ls (lp (nlp b)) = lp_ls (lp (nlp a)) -> lp_matj (lp (nlp b)) = lp_matj (lp (nlp a)) ->
  phi b = phi a -> nst b = nst a -> tr b = tr a -> planar a -> planar b.
Proof.
  intros E1 E2 E3 E4 E5 [P1 P2 P3 P4]. constructor; [congruence|congruence| |congruence].
  unfold neutral in *. rewrite E1, E2, E4. exact P3.
Qed.

Lemma CJ_new : i_new prob CJ g yy0 yp0.
Proof.
  intros st E. split; [exact (J_new prob g yy0 yp0 st E)|]. intros _.
  pose proof (new_fields prob _ _ _ E) as F.
  destruct F as (_ & _ & _ & F4 & _ & _ & _ & _ & _ & F10 & _ & _ & _ & _ & _ & F16 & _).
  assert (Q : planar st).
  { constructor.
    - unfold ida_new in E. destruct (_ && _); [|discriminate]. apply ret_inj in E. subst st. exact (proj1 Hls).
    - rewrite F16. split; [exact Hy0|]. intros j Hj. destruct j as [|[|[|[|[|[|j]]]]]]; [lia|exact Hyp0|..]; cbn;
        try apply dot_vzero. destruct j; apply dot_nil.
    - congruence.
    - rewrite F10. constructor. }
  apply (planar_ext st); try reflexivity. exact Q.
Qed.

Lemma good_quiet evs : Forall (fun e => is_root e || is_warn e = true) evs -> Forall (good_ev prob c d) evs.
Proof. intros A. eapply Forall_impl; [|exact A]. intros e. destruct e; cbn; trivial; discriminate. Qed.

Lemma CJ_shell : i_shell prob CJ.
Proof.
  intros a b Ho (Ja & La) S. split; [exact (J_shell prob g a b Ho Ja S)|]. intros Hd.
  destruct (sh_trace _ _ _ S) as (evs & T1 & T2 & _). pose proof (sh_core _ _ _ S) as C.
  pose proof (core_fields _ _ C) as D. destruct D as (_ & D1 & D).
  assert (En : nst b = nst a) by intuition congruence. clear D.
  assert (El : lp_ls (lp (nlp b)) = lp_ls (lp (nlp a)) /\ lp_matj (lp (nlp b)) = lp_matj (lp (nlp a))).
  { unfold core in C. cbv zeta in C. split; congruence. }
  destruct El as (El & Em). destruct La as [P1 P2 P3 P4].
  { destruct Hd as [Hd|Hd]; [left; exact Hd|right]. rewrite T1 in Hd. exact (clean_past _ _ Hd). }
  constructor; [congruence|congruence|unfold neutral in *; rewrite El, Em, En; exact P3|].
  rewrite T1. apply Forall_app. split; [exact (good_quiet _ T2)|exact P4].
Qed.

Lemma CJ_lims : i_lims CJ.
Proof.
  intros a b Ho (Ja & La) Hz S. split; [exact (J_lims prob g a b Ho Ja Hz S)|].
  destruct S as [(_ & ->)|(ts & _ & _ & ->)]; [exact La|]. unfold limit_to_tstop. destruct (_ <? _)%sc; [|exact La].
  intros Hd. apply (planar_ext a); try reflexivity. exact (La Hd).
Qed.

Lemma flat_upd1 ph s : flat ph -> flat (upd ph 1 (vscale n s (row ph 1))).
Proof.
  intros (F0 & F1). unfold flat, row in *. split; [rewrite nth_upd_neq by lia; exact F0|]. intros j Hj.
  destruct (Nat.eq_dec j 1) as [->|Hj1]; [|rewrite nth_upd_neq by lia; apply F1, Hj].
  destruct (le_lt_dec (length ph) 1) as [L|L].
  - rewrite nth_overflow by (rewrite upd_length; exact L). apply dot_nil.
  - rewrite nth_upd_eq by exact L. rewrite dot_vscale, F1 by lia. ring.
Qed.

Lemma CJ_first : i_first prob ewt_set CJ.
Proof.
  intros a tout x Ho (Ja & La) Hz E. split; [exact (J_first prob ewt_set g a tout x Ho Ja Hz E)|].
  intros Hd. apply first_call_frame in E. cbv zeta in E. destruct E as (F1 & _ & _ & _ & F5).
  set (b := match x with inl (s, _) => s | inr s => s end) in *.
  assert (El : lp_ls (lp (nlp b)) = lp_ls (lp (nlp a)) /\ lp_matj (lp (nlp b)) = lp_matj (lp (nlp a)) /\ nst b = nst a).
  { unfold fkeep in F1. cbv zeta in F1. repeat split; congruence. }
  destruct El as (El & Em & En). destruct Ho as (Ha & _). destruct Ha as (La1 & _).
  assert (Hph : flat (phi a) -> flat (phi b)).
  { intros F. unfold b in *. destruct x as [(s & m)|s].
    - destruct F5 as (-> & _). exact F.
    - destruct F5 as (F5 & _). rewrite F5 by lia. apply flat_upd1, F. }
  assert (Ht : exists evs, tr b = evs ++ tr a /\ Forall (fun e => is_root e || is_warn e = true) evs).
  { unfold b in *. destruct x as [(s & m)|s].
    - exists []. split; [|constructor]. destruct F5 as (_ & _ & _ & -> & _). reflexivity.
    - destruct F5 as (_ & _ & _ & _ & _ & _ & evs & T1 & T2 & _). exists evs. split; [exact T1|].
      eapply Forall_impl; [|exact T2]. intros e ->. reflexivity. }
  destruct Ht as (evs & T1 & T2). destruct La as [P1 P2 P3 P4].
  { destruct Hd as [Hd|Hd]; [left; exact Hd|right]. rewrite T1 in Hd. exact (clean_past _ _ Hd). }
  constructor; [congruence|exact (Hph P2)|unfold neutral in *; rewrite El, Em, En; exact P3|].
  rewrite T1. apply Forall_app. split; [exact (good_quiet _ T2)|exact P4].
Qed.

Lemma CJ_begin : i_begin prob ewt_set CJ.
Proof.
  intros st Ho (Jst & Lst) Hlim Hfr. split; [exact (J_begin prob ewt_set g st Ho Jst Hlim Hfr)|].
  destruct (init_fields st) as (F1 & F2 & F3 & F4 & F5 & F6 & F7 & F8 & F9 & F10 & F11 & F12 & F13 & F14 &
    F15 & F16 & F17 & F18 & F19 & _).
  intros Hd. destruct Lst as [P1 P2 P3 P4].
  { destruct Hd as [Hd|Hd]; [left; exact Hd|right]. rewrite F19 in Hd. exact (clean_past [_] _ Hd). }
  assert (El : lp_ls (lp (nlp (st_init st))) = lp_ls (lp (nlp st)) /\ lp_matj (lp (nlp (st_init st))) = lp_matj (lp (nlp st))).
  { unfold st_init. cbv zeta. destruct (_ =? 0)%nat; split; reflexivity. }
  destruct El as (El & Em).
  constructor; [congruence|congruence|unfold neutral in *; rewrite El, Em, F8; exact P3|].
  rewrite F19. constructor; [exact I|exact P4].
Qed.

Lemma ns_pos (st st1 : state) : coeffs_step prob st st1 -> (1 <= ns st1)%nat.
Proof. intros (-> & _). unfold ns_next. lia. Qed.

Lemma CJ_retry : i_retry prob CJ.
Proof.
  intros st t0 nef st1 ck ek ek1 st' Hi (Jst & Lst) Et Htr Hat Hne Hrt.
  split; [exact (J_retry prob ewt_set g st t0 nef st1 ck ek ek1 st' Hi Jst Et Htr Hat Hne Hrt)|]. intros Hd.
  destruct (rl_try prob ewt_set g st st1 t0 nef ck _ Hi Jst Htr Hat) as (evs & T1 & T2 & _).
  pose proof (rt_nlp _ _ _ _ _ Hrt) as U1. pose proof (rt_keep _ _ _ _ _ Hrt) as U3.
  pose proof (tr_cnt _ _ _ _ _ Htr) as U4.
  assert (Et1 : tr st' = tr st1) by (rewrite U1; reflexivity).
  assert (Ep : planar st).
  { apply Lst. destruct Hd as [Hd|Hd]; [left; exact Hd|right]. rewrite Et1, T1, app_assoc in Hd.
    apply clean_past in Hd. exact (clean_past [_] _ Hd). }
  destruct (rl_h _ _ _ (proj2 Jst) ltac:(right; discriminate)) as (Hh & _).
  pose proof (is_kk _ Hi) as Hk.
  destruct (try_plane _ _ _ _ _ _ (proj1 Hk) Hh Et Htr Ep) as (A1 & A2 & A3 & A4 & _).
  assert (En : nst st' = nst st /\ nst st1 = nst st) by (pinj; split; congruence). destruct En as (En & En1).
  assert (El : lp_ls (lp (nlp st')) = lp_ls (lp (nlp st1)) /\ lp_matj (lp (nlp st')) = lp_matj (lp (nlp st1)))
    by (rewrite U1; split; reflexivity). destruct El as (El & Em).
  constructor; [congruence| |intros _; unfold neutral in *; rewrite El, Em; exact A3|congruence].
  destruct (rt_hist _ _ _ _ _ Hrt) as (ps & ph & G1 & G2 & G3).
  pose proof (flat_restored st1 ps ph (ns_pos _ _ (tr_coeffs _ _ _ _ _ Htr)) G1 A2) as Fp.
  destruct (Nat.eq_dec (nst st1) 0) as [Hz|Hz]; [|destruct (G2 Hz) as (_ & ->); exact Fp].
  destruct (G3 Hz) as (_ & ->).
  assert (D0 : d = 0).
  { destruct Hd as [Hd|Hd]; [exact Hd|exfalso]. rewrite Et1, T1 in Hd.
    apply (Hd [] CFail _ eq_refl); [reflexivity|].
    destruct (calm_app evs (CTry (tn (nlp st)) (hh st) (kk st) :: tr st) T2) as (_ & _ & S3 & _). rewrite S3.
    pose proof (tl_n _ _ _ _ (proj1 Jst)) as Ln. cbn. apply length_zero_iff_nil. congruence. }
  destruct Fp as (Fp0 & Fp1).
  assert (Fs : forall j, dot n c (row (map (vscale n (rr st')) ph) j) = rr st' * dot n c (row ph j)).
  { intros j. unfold row. destruct (le_lt_dec (length ph) j) as [L|L].
    - rewrite !nth_overflow by (rewrite ?map_length; exact L). rewrite dot_nil. ring.
    - rewrite (nth_indep _ _ (vscale n (rr st') [])) by (rewrite map_length; exact L).
      rewrite map_nth. rewrite dot_vscale. reflexivity. }
  split; [rewrite Fs, Fp0, D0; ring|]. intros j Hj. rewrite Fs, Fp1 by exact Hj. ring.
Qed.

Lemma CJ_commit : i_commit prob CJ.
Proof.
  intros st t0 nef st1 ck ek ek1 st2 Hi (Jst & Lst) Et Htr Hat Hcp.
  split; [exact (J_commit prob ewt_set g st t0 nef st1 ck ek ek1 st2 Hi Jst Et Htr Hat Hcp)|]. intros Hd.
  destruct (rl_try prob ewt_set g st st1 t0 nef ck _ Hi Jst Htr Hat) as (evs & T1 & T2 & _).
  pose proof (cp_nlp _ _ _ Hcp) as U2. pose proof (tr_res _ _ _ _ _ Htr) as (R1 & _).
  pose proof (tr_ord _ _ _ _ _ Htr) as U7. pinj.
  assert (Ht : tr (st_commit prob ck st2) = CStep (tn (nlp st2)) (yy (nlp st2)) :: tr st1).
  { unfold st_commit. cbn [nlp lp trace set_ee on_lp on_nlp set_nlp set_lp push_ev set_trace]. rewrite U2. reflexivity. }
  assert (Ep : planar st).
  { apply Lst. destruct Hd as [Hd|Hd]; [left; exact Hd|right]. rewrite Ht, T1 in Hd. cbn in Hd.
    apply (clean_past [_]) in Hd. apply clean_past in Hd. exact (clean_past [_] _ Hd). }
  destruct (rl_h _ _ _ (proj2 Jst) ltac:(right; discriminate)) as (Hh & _).
  pose proof (is_kk _ Hi) as Hk.
  destruct (try_plane _ _ _ _ _ _ (proj1 Hk) Hh Et Htr Ep) as (A1 & A2 & A3 & A4 & A5). specialize (A5 eq_refl).
  assert (El : lp_ls (lp (nlp (st_commit prob ck st2))) = lp_ls (lp (nlp st1)) /\
               lp_matj (lp (nlp (st_commit prob ck st2))) = lp_matj (lp (nlp st1))).
  { unfold st_commit. cbn [nlp lp set_ee on_lp on_nlp set_nlp set_lp push_ev set_trace lp_ls lp_matj]. rewrite U2. split; reflexivity. }
  destruct El as (El & Em).
  assert (E0 : dot n c (row (phi st2) 0) = d).
  { rewrite (cp_row _ _ _ Hcp 0) by lia. replace (kk st1 + 1 - 0)%nat with (S (kk st1)) by lia. apply flat_tail0; assumption. }
  assert (E1 : row (phi st2) 0 = yy (nlp st2)).
  { rewrite (cp_row _ _ _ Hcp 0) by lia. rewrite Nat.sub_0_r, U2, R1, (tr_yyp _ _ _ _ _ Htr).
    replace (kk st) with (kk st1) by congruence. apply tailsum_rowsum. }
  constructor; [congruence| |intros _; unfold neutral in *; rewrite El, Em; exact A3|].
  - change (phi (st_commit prob ck st2)) with (phi st2). split; [exact E0|]. intros j Hj.
    destruct (le_lt_dec j (kk st1)) as [L|L].
    + rewrite (cp_row _ _ _ Hcp j L). apply flat_tail; assumption.
    + destruct (Nat.eq_dec (kk st1) (maxord st1)) as [M|M].
      * rewrite (cp_rest _ _ _ Hcp j L) by (left; exact M). apply A2, Hj.
      * destruct (Nat.eq_dec j (kk st1 + 1)) as [->|Hj1].
        -- rewrite (cp_row1 _ _ _ Hcp); [exact A5|].
           destruct (cfg_fields _ _ (tr_cfg _ _ _ _ _ Htr)) as (_ & _ & _ & _ & _ & _ & _ & Q & _). lia.
        -- rewrite (cp_rest _ _ _ Hcp j L) by (right; lia). apply A2, Hj.
  - rewrite Ht. constructor; [cbn; rewrite <- E1; exact E0|exact A4].
Qed.

Lemma CJ_giveup : i_giveup prob CJ.
Proof.
  intros st t0 nef st1 ck ek ek1 st' e Hi (Jst & Lst) Et Htr Hat Hgu He.
  split; [exact (J_giveup prob ewt_set g st t0 nef st1 ck ek ek1 st' e Hi Jst Et Htr Hat Hgu He)|]. intros Hd.
  destruct (rl_try prob ewt_set g st st1 t0 nef ck _ Hi Jst Htr Hat) as (evs & T1 & T2 & _).
  pose proof (gu_nlp _ _ _ _ Hgu) as U2.
  assert (Et1 : tr st' = tr st1) by (rewrite U2; reflexivity).
  assert (Ep : planar st).
  { apply Lst. destruct Hd as [Hd|Hd]; [left; exact Hd|right]. rewrite Et1, T1, app_assoc in Hd.
    apply clean_past in Hd. exact (clean_past [_] _ Hd). }
  destruct (rl_h _ _ _ (proj2 Jst) ltac:(right; discriminate)) as (Hh & _).
  pose proof (is_kk _ Hi) as Hk.
  destruct (try_plane _ _ _ _ _ _ (proj1 Hk) Hh Et Htr Ep) as (A1 & A2 & A3 & A4 & _).
  assert (El : lp_ls (lp (nlp st')) = lp_ls (lp (nlp st1)) /\ lp_matj (lp (nlp st')) = lp_matj (lp (nlp st1)))
    by (rewrite U2; split; reflexivity). destruct El as (El & Em).
  constructor; [congruence| |intros _; unfold neutral in *; rewrite El, Em; exact A3|congruence].
  exact (flat_restored st1 _ _ (ns_pos _ _ (tr_coeffs _ _ _ _ _ Htr)) (gu_hist _ _ _ _ Hgu) A2).
Qed.

Lemma reach_CJ (st : state) : reach prob ewt_set g yy0 yp0 st -> CJ None st.
Proof.
  intros Hr. apply (reach_life prob ewt_set Hl CJ g yy0 yp0 st Hg);
    [apply CJ_new|apply CJ_shell|apply CJ_lims|apply CJ_first| |exact Hr].
  split; [exact CJ_begin|]. split; [exact CJ_retry|]. split; [exact CJ_commit|exact CJ_giveup].
Qed.

Lemma flat_rowcf (f : nat -> R) ph k : flat ph -> f 0%nat = 1 -> dot n c (rowcf prob f ph 0 (S k)) = d.
Proof.
  intros (F0 & F1) H0. induction k as [|k IH].
  - cbn [rowcf]. change (0 + 0)%nat with 0%nat. rewrite dot_vscaled_add, dot_vzero, F0, H0. ring.
  - cbn [rowcf] in *. rewrite dot_vscaled_add, IH, F1 by lia. ring.
Qed.

Lemma flat_rowcf1 (f : nat -> R) ph k : flat ph -> dot n c (rowcf prob f ph 1 k) = 0.
Proof.
  intros (_ & F1). induction k as [|k IH]; [apply dot_vzero|].
  cbn [rowcf]. rewrite dot_vscaled_add, IH, F1 by lia. ring.
Qed.

Lemma plane_solution (st s : state) t : ordok st -> planar st -> get_solution prob st t = Ret (s, Ok tt) ->
  dot n c (get_yy s) = d /\ dot n c (get_yp s) = 0.
Proof.
  intros (Harr & Hm & Hm2 & Hm3 & _) [_ P2 _ _] E.
  pose proof (gs_eval prob st s t _ Harr ltac:(lia) E) as G. destruct (time_check st t); [destruct G; discriminate|].
  destruct G as (_ & G1 & G2). unfold get_yy, get_yp. rewrite G1, G2. split.
  - unfold interp_y. replace (kord st + 1)%nat with (S (kord st)) by lia. apply flat_rowcf; [exact P2|reflexivity].
  - apply flat_rowcf1, P2.
Qed.

Theorem conserved (st : state) : reach prob ewt_set g yy0 yp0 st -> d = 0 \/ clean (tr st) ->
  (forall a, In a (steps (tr st)) -> dot n c (a_y a) = d) /\
  (forall t y yp, In (CRes t y yp) (tr st) -> dot n c y = d /\ dot n c yp = 0) /\
  (forall t cj y yp, In (CJac t cj y yp) (tr st) -> dot n c y = d /\ dot n c yp = 0) /\
  (forall t s, get_solution prob st t = Ret (s, Ok tt) -> dot n c (get_yy s) = d /\ dot n c (get_yp s) = 0).
Proof.
  intros Hr Hd. destruct (reach_CJ st Hr) as (_ & P). specialize (P Hd). pose proof (pl_tr _ P) as G.
  rewrite Forall_forall in G. split; [|split; [|split]].
  - intros a Ha. destruct (steps_in _ _ Ha) as (t & X). exact (G _ X).
  - intros t y yp Hi. exact (G _ Hi).
  - intros t c1 y yp Hi. exact (G _ Hi).
  - intros t s E. exact (plane_solution st s t (reach_ord prob ewt_set Hl g yy0 yp0 st Hg Hr) P E).
Qed.
End Conserve.

(** ** C74 *)
(** The system keeps the linear form [c . y]: some combination [w] of its
    equations reads either [al (c . y - d) = 0] (an algebraic constraint) or
    [be (c . y') = 0] (a conserved quantity), and the Jacobian the user
    supplies agrees with that. *)
Definition keeps (prob : problem R) (w c : nat -> R) (al be d : R) : Prop :=
  let n := model_size prob in
  (be = 0 /\ al <> 0 \/ al = 0 /\ be <> 0) /\
  (forall t y yp, rsum n (fun i => w i * p_res prob t y yp i) =
     al * (rsum n (fun i => c i * nth i y 0) - d) + be * rsum n (fun i => c i * nth i yp 0)) /\
  (forall t cj y yp r j, (j < n)%nat -> rsum n (fun i => w i * p_jac prob t cj y yp r i j) = (al + be * cj) * c j).

(** With exact arithmetic, the crate's Newton solver and any linear solver
    that solves the systems it has factored: everything the user sees - the
    arguments of the residual and of the Jacobian, the accepted values, the
    dense output and its derivative - satisfies the constraint, as long as no
    error test failed before the first accepted step (or the constraint is
    homogeneous). *)
Theorem C74_constraint_kept_partial : forall (LSt : Type) (LS : LSolver R LSt) (prob : problem R) ewt_set fuel okls w c al be d g yy0 yp0
    (st : ida R LSt (newton R)),
  let n := model_size prob in
  let form v := rsum n (fun i => c i * nth i v 0) in
  (1 <= n)%nat -> exact_ls n okls -> keeps prob w c al be d -> config_ok g -> form yy0 = d -> form yp0 = 0 ->
  @reach R LSt (newton R) _ _ (NewtonNLS fuel) prob ewt_set g yy0 yp0 st ->
  let tr := trace (lp (nlp st)) in
  d = 0 \/ clean tr ->
  (forall a, In a (steps tr) -> form (a_y a) = d) /\
  (forall t y yp, In (CRes t y yp) tr -> form y = d /\ form yp = 0) /\
  (forall t cj y yp, In (CJac t cj y yp) tr -> form y = d /\ form yp = 0) /\
  (forall t s, get_solution prob st t = Ret (s, Ok tt) -> form (get_yy s) = d /\ form (get_yp s) = 0).
Proof.
  intros LSt LS prob ewt_set fuel okls w c al be d g yy0 yp0 st n form Hn Hls (Hab & Hres & Hjac) Hg Hy Hyp Hr tr Hd.
  exact (conserved prob ewt_set fuel okls Hls Hn w c al be d Hres Hjac Hab g Hg yy0 yp0 Hy Hyp st Hr Hd).
Qed.
Print Assumptions C74_constraint_kept_partial.

(** With the crate's dense solver. *)
Theorem C74_constraint_kept_dense_partial : forall (prob : problem R) ewt_set fuel w c al be d g yy0 yp0
    (st : ida R (list nat) (newton R)),
  let n := model_size prob in
  let form v := rsum n (fun i => c i * nth i v 0) in
  (1 <= n)%nat -> keeps prob w c al be d -> config_ok g -> form yy0 = d -> form yp0 = 0 ->
  @reach R (list nat) (newton R) _ _ (NewtonNLS fuel) prob ewt_set g yy0 yp0 st ->
  let tr := trace (lp (nlp st)) in
  d = 0 \/ clean tr ->
  (forall a, In a (steps tr) -> form (a_y a) = d) /\
  (forall t y yp, In (CRes t y yp) tr -> form y = d /\ form yp = 0) /\
  (forall t cj y yp, In (CJac t cj y yp) tr -> form y = d /\ form yp = 0) /\
  (forall t s, get_solution prob st t = Ret (s, Ok tt) -> form (get_yy s) = d /\ form (get_yp s) = 0).
Proof.
  intros prob ewt_set fuel w c al be d g yy0 yp0 st n form Hn Hk Hg Hy Hyp Hr.
  exact (C74_constraint_kept_partial _ _ prob ewt_set fuel _ w c al be d g yy0 yp0 st Hn (dense_exact n Hn) Hk Hg Hy Hyp Hr).
Qed.
Print Assumptions C74_constraint_kept_dense_partial.

(** The crate's own example (sample_problems/roberts.rs, modelled in Samples): the concentrations add up to 1, for all rate constants. *)
Lemma roberts_keeps c1 c2 c3 c4 c5 c6 :
  keeps (roberts c1 c2 c3 c4 c5 c6) (fun i => match i with 2%nat => 1 | _ => 0 end) (fun _ => 1) 1 0 1.
Proof.
  split; [left; split; lra|]. split.
  - intros t y yp. cbn. unfold vget. cbn. ring.
  - intros t cj y yp r j Hj. cbn in Hj. destruct j as [|[|[|j]]]; [..|lia]; cbn; ring.
Qed.

Theorem C74_roberts_partial : forall c1 c2 c3 c4 c5 c6 ewt_set fuel g yy0 yp0 (st : ida R (list nat) (newton R)),
  let prob := roberts c1 c2 c3 c4 c5 c6 in
  let sum v := nth 0 v 0 + nth 1 v 0 + nth 2 v 0 in
  config_ok g -> sum yy0 = 1 -> sum yp0 = 0 ->
  @reach R (list nat) (newton R) _ _ (NewtonNLS fuel) prob ewt_set g yy0 yp0 st ->
  clean (trace (lp (nlp st))) ->
  (forall a, In a (steps (trace (lp (nlp st)))) -> sum (a_y a) = 1) /\
  (forall t s, get_solution prob st t = Ret (s, Ok tt) -> sum (get_yy s) = 1 /\ sum (get_yp s) = 0).
Proof.
  intros c1 c2 c3 c4 c5 c6 ewt_set fuel g yy0 yp0 st prob sum Hg Hy Hyp Hr Hc.
  assert (E : forall v, rsum 3 (fun i => 1 * nth i v 0) = sum v) by (intros v; unfold sum; cbn; ring).
  destruct (C74_constraint_kept_dense_partial prob ewt_set fuel _ (fun _ => 1) _ _ _ g yy0 yp0 st ltac:(cbn; lia)
    (roberts_keeps c1 c2 c3 c4 c5 c6) Hg ltac:(cbn -[rsum]; rewrite E; exact Hy) ltac:(cbn -[rsum]; rewrite E; exact Hyp) Hr (or_intror Hc))
    as (A & _ & _ & B).
  split.
  - intros a Ha. rewrite <- E. exact (A a Ha).
  - intros t s Es. rewrite <- !E. exact (B t s Es).
Qed.
Print Assumptions C74_roberts_partial.

(** Hypotheses met: the initial state of the Roberts problem; a life with
    accepted steps: C75_hypotheses_met in PropLinear. *)
Example C74_hypotheses_met : exists st : ida R (list nat) (newton R),
  let prob := roberts (4 / 100) 10000 30000000 60000000 (1 / 10000) (1 / 100) in
  @reach R (list nat) (newton R) _ _ (NewtonNLS 10) prob (fun v => v) (default_config prob) [1; 0; 0] [- (4 / 100); 4 / 100; 0] st /\
  clean (trace (lp (nlp st))) /\ config_ok (default_config prob).
Proof.
  eexists. cbv zeta. split; [|split].
  - eapply reach_new. reflexivity.
  - cbn. apply every_nil.
  - unfold config_ok. cbn. lia.
Qed.

(** The full statement has no condition on failed error tests.  It is false:
    after failed attempts of the first step the conserved quantity is another
    one.  y1' = 1000000 t and y1' + y2' = 0 from (1, 0), default settings, the
    crate's solvers, binary64: y1 + y2 falls below 1/100. *)
Require Import Floats Verif.ScalarF Verif.Witness.
Set Warnings "-inexact-float".
Close Scope R_scope.
Open Scope float_scope.
Definition ramp2F : problem float := mkproblem 2 0
  (fun t _ yp i => match i with O => vget yp 0 - 1e6 * t | _ => vget yp 0 + vget yp 1 end)
  (fun _ cj _ _ _ i j => match i, j with O, O => cj | O, _ => 0 | _, _ => cj end) (fun _ _ _ _ => 0).
Definition ramp2_ewt : list float -> list float := ewt_set_sv 1e-4 [1e-6; 1e-6].
Definition ramp2_test (st : fstate) (_ : list (@reply float)) : bool :=
  match steps (trace (lp (nlp st))) with
  | [a] => (0 <? a_t a) && match a_y a with [y1; y2] => y1 + y2 <? 0.01 | _ => false end
  | _ => false end.
Lemma ramp2_ok : life_test ramp2F ramp2_ewt (default_config ramp2F) [1; 0] [0; 0] 600 100 [CallSolve 1 0 OneStep] ramp2_test = true.
Proof. vm_compute. reflexivity. Qed.

Theorem C74_constraint_kept_refuted : exists (st : fstate) (t y1 y2 h : float) k,
  reach ramp2F ramp2_ewt (default_config ramp2F) [1; 0] [0; 0] st /\
  (forall t y yp, p_res ramp2F t y yp 1%nat = vget yp 0 + vget yp 1) /\
  steps (trace (lp (nlp st))) = [mkastep t [y1; y2] h k] /\ (0 <? t) = true /\ (y1 + y2 <? 0.01) = true.
Proof.
  destruct (life_test_ok _ _ _ _ _ _ _ _ _ ramp2_ok) as (st & rs & Hr & Ht). unfold ramp2_test in Ht.
  destruct (steps (trace (lp (nlp st)))) as [|[t y h k] [|? ?]] eqn:E; try discriminate.
  cbn [a_t a_y] in Ht. apply andb_prop in Ht. destruct Ht as (H1 & H2).
  destruct y as [|y1 [|y2 [|? ?]]]; try discriminate.
  exists st, t, y1, y2, h, k. split; [exact Hr|]. split; [reflexivity|]. auto.
Qed.
Print Assumptions C74_constraint_kept_refuted.
