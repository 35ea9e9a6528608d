(** * IdaInv: invariants of every life of an integrator object, for every scalar *)
Require Import List Arith Bool Lia.
Import ListNotations.
Require Import Verif.Base Verif.Scalar Verif.Norms Verif.Newton Verif.NewtonSpec Verif.IdaState
  Verif.IdaNls Verif.IdaCore Verif.IdaRoots Verif.IdaSolve Verif.BaseFacts Verif.NewtonFacts
  Verif.IdaFacts Verif.IdaLoops Verif.IdaStep Verif.IdaSpec Verif.IdaShell Verif.IdaReach.

(** The Newton solver is lawful. *)
Lemma newton_lawful {T} `{Scalar T} fuel : @nls_lawful T (newton T) (NewtonNLS fuel).
Proof.
  intros S P Q HQ size s x d y w tol call s' x' y' r Hx E. cbn in E.
  exact (newton_preserves P size Q HQ fuel s x d y w tol call s' x' y' r Hx E).
Qed.

Section Inv.
Context {T LSt NSt : Type} `{Scalar T} `{LSolver T LSt} `{NLSolver T NSt}.
Variable prob : problem T.
Variable ewt_set : list T -> list T.
Hypothesis Hl : @nls_lawful T NSt _.
Notation n := (model_size prob).
Notation nr := (num_roots prob).
Notation state := (ida T LSt NSt).
Notation nlpst := (nlprob T LSt).

(** ** Callbacks made by a nonlinear solve *)

(** A residual call at the current time with a corrected prediction, or a
    Jacobian call (at time zero) with the current leading coefficient. *)
Definition good_ev (s0 : nlpst) (e : event T) : Prop :=
  match e with
  | CRes t y ypv => t = tn s0 /\ exists c, y = vadd n (yypredict s0) c /\
                    ypv = vscaled_add n (yppredict s0) (cj (lp s0)) c
  | CJac t c _ _ => t = szero /\ c = cj (lp s0)
  | _ => False
  end.

Definition calls (s0 s : nlpst) (evs : list (event T)) : Prop :=
  trace (lp s) = evs ++ trace (lp s0) /\ Forall (good_ev s0) evs /\
  nre s = nre s0 + count is_res evs /\ nje (lp s) = nje (lp s0) + count is_jac evs /\
  (n <> 0 -> nsetups s = nsetups s0 + count is_jac evs) /\ ncfl (lp s0) <= ncfl (lp s).

Lemma keep_fields (a b : nlpst) : nlpkeep a = nlpkeep b ->
  yypredict a = yypredict b /\ yppredict a = yppredict b /\ ewt a = ewt b /\ tn a = tn b /\
  toldel a = toldel b /\ cj (lp a) = cj (lp b).
Proof. unfold nlpkeep. intros E. pinj. repeat split; assumption. Qed.

Lemma calls_preserved (s0 : nlpst) :
  preserves (ida_nlproblem prob) (fun s => nlpkeep s = nlpkeep s0 /\ exists evs, calls s0 s evs).
Proof.
  destruct (nlpkeep_preserved prob s0) as (K1 & K2 & K3 & K4).
  split; [|split; [|split]].
  - intros s y s' f r (Hk & evs & C1 & C2 & C3 & C4 & C5 & C6) E.
    split; [exact (K1 _ _ _ _ _ Hk E)|]. apply keep_fields in Hk. destruct Hk as (A1 & A2 & A3 & A4 & A5 & A6).
    cbn in E. unfold nlp_sys in E. cbv zeta in E. injection E as <- <- <-.
    exists (CRes (tn s) (vadd n (yypredict s) y) (vscaled_add n (yppredict s) (cj (lp s)) y) :: evs).
    unfold calls, count in *. cbn. rewrite C1, C3, C4. split; [reflexivity|]. split.
    { constructor; [|exact C2]. cbn. split; [exact A4|]. exists y. rewrite A1, A2, A6. auto. }
    split; [lia|]. split; [reflexivity|]. split; [exact C5|exact C6].
  - intros s y f j s' r (Hk & evs & C1 & C2 & C3 & C4 & C5 & C6) E.
    split; [exact (K2 _ _ _ _ _ _ Hk E)|]. apply keep_fields in Hk. destruct Hk as (A1 & A2 & A3 & A4 & A5 & A6).
    cbn in E. unfold nlp_setup, lp_setup in E. cbv zeta in E.
    destruct (Nat.eqb_spec n 0) as [Hn|Hn].
    + exists evs. minv. unfold calls, count in *. cbn. repeat split; auto; lia.
    + exists (CJac szero (cj (lp s)) (yy s) (yp s) :: evs). minv. unfold calls, count in *. cbn. rewrite C1, C4, C5 by exact Hn.
      split; [reflexivity|]. split; [constructor; [cbn; auto|exact C2]|].
      split; [exact C3|]. split; [lia|]. split; [lia|exact C6].
  - intros s y b s' x r (Hk & evs & C1 & C2 & C3 & C4 & C5 & C6) E.
    split; [exact (K3 _ _ _ _ _ _ Hk E)|].
    cbn in E. unfold nlp_solve, lp_solve in E. cbv zeta in E. exists evs.
    destruct (ls_type (lp_ls (lp s))); minv;
      repeat match goal with r : result unit nat |- _ => destruct r end;
      unfold calls, count in *; cbn; repeat split; auto; lia.
  - intros s i y d tol w s' r (Hk & evs & C1 & C2 & C3 & C4 & C5 & C6) E.
    split; [exact (K4 _ _ _ _ _ _ _ _ Hk E)|].
    cbn in E. unfold nlp_ctest in E. cbv zeta in E. exists evs. minv; unfold calls, count in *; cbn; repeat split; auto.
Qed.

Lemma calls_refl s : calls s s [].
Proof. unfold calls, count in *. cbn. repeat split; auto. Qed.

Lemma nls_prepare_calls (st : state) :
  exists x b, nls_prepare st = (set_nlp x st, b) /\ nlpkeep x = nlpkeep (nlp st) /\ calls (nlp st) x [].
Proof.
  unfold nls_prepare. cbv zeta. destruct (nst st =? 0); destruct (sneqb _ _);
  eexists _, _; (split; [reflexivity|]; split; [reflexivity|]; repeat split; cbn; auto).
Qed.

Lemma good_ev_ext (a b : nlpst) e : nlpkeep a = nlpkeep b -> good_ev a e -> good_ev b e.
Proof.
  intros Hk. apply keep_fields in Hk. destruct Hk as (A1 & A2 & A3 & A4 & A5 & A6).
  destruct e; cbn; auto; rewrite ?A1, ?A2, ?A4, ?A6; auto.
Qed.

Lemma nonlinear_solve_calls (st st' : state) r :
  nonlinear_solve prob st = Ret (st', r) -> exists evs, calls (nlp st) (nlp st') evs.
Proof.
  unfold nonlinear_solve. intros E.
  destruct (nls_prepare_calls st) as (x & b & Hb & Hk & Hc). rewrite Hb in E. clear Hb.
  cbv zeta in E. apply bind_ret_inv in E. destruct E as (((s1 & d1) & r1) & E1 & E). cbv beta iota in E.
  destruct r1 as [u|e]; [|injection E as <- <-; exists []; exact Hc].
  apply bind_ret_inv in E. destruct E as ((((s2 & x2) & e2) & r2) & E2 & E). cbv beta iota in E.
  assert (Hx : exists evs, calls (nlp st) x2 evs).
  { destruct (Hl _ _ _ (calls_preserved x) _ _ _ _ _ _ _ _ _ _ _ _
                (conj eq_refl (ex_intro _ [] (calls_refl x))) E2) as (_ & evs & C1 & C2 & C3 & C4 & C5 & C6).
    destruct Hc as (D1 & D2 & D3 & D4 & D5 & D6). exists evs. unfold calls.
    cbn [count filter length] in *. change (length (filter ?f [])) with 0 in *.
    rewrite C1, D1, C3, D3, C4, D4. cbn [app]. split; [reflexivity|].
    split; [eapply Forall_impl; [|exact C2]; intros e; apply good_ev_ext; exact Hk|].
    split; [cbn; lia|]. split; [cbn; lia|]. split; [intros Hn; rewrite C5, D5 by exact Hn; cbn; lia|lia]. }
  destruct r2 as [u2|e2']; [destruct (constraints_set _); [discriminate|]|];
    injection E as <- <-; exact Hx.
Qed.

(** Trace and counters of one attempt. *)
Definition fails (r : result unit (err T)) : list (event T) :=
  match r with Err (EIda TestFail) => [CFail] | _ => [] end.

(** What a residual or Jacobian call of an attempt from [st] looks like. *)
Definition call_in (st st' : state) (e : event T) : Prop :=
  match e with
  | CRes t y ypv => t = tn_next st /\ exists c, y = vadd n (yypredict (nlp st')) c /\
                    ypv = vscaled_add n (yppredict (nlp st')) (cj_of st) c
  | CJac t c _ _ => t = szero /\ c = cj_of st
  | _ => False
  end.

Definition attempted (st st' : state) (r : result unit (err T)) : Prop :=
  exists evs,
  trace (lp (nlp st')) = fails r ++ evs ++ CTry (tn (nlp st)) (hh st) (kk st) :: trace (lp (nlp st)) /\
  Forall (call_in st st') evs /\
  nre (nlp st') = nre (nlp st) + count is_res evs /\
  nje (lp (nlp st')) = nje (lp (nlp st)) + count is_jac evs /\
  (n <> 0 -> nsetups (nlp st') = nsetups (nlp st) + count is_jac evs) /\
  ncfl (lp (nlp st)) <= ncfl (lp (nlp st')).

Lemma test_error_calls (st st' : state) ck ek ek1 r :
  test_error prob st ck = Ret (st', ek, ek1, r) ->
  exists l, nlp st' = set_lp l (nlp st) /\ l = set_trace (fails r ++ trace (lp (nlp st))) (lp (nlp st)).
Proof.
  unfold test_error. intros E. apply bind_ret_inv in E. destruct E as (sg & _ & E). cbv beta zeta in E.
  apply bind_ret_inv in E. destruct E as (((s & e1) & kn) & E1 & E). cbv beta iota in E.
  assert (Hs : nlp s = nlp st).
  { destruct (1 <? kk st); [|injection E1 as <- <- <-; reflexivity].
    apply bind_ret_inv in E1. destruct E1 as (pk & _ & E1). cbv beta in E1.
    apply bind_ret_inv in E1. destruct E1 as (sk & _ & E1). cbv beta in E1.
    destruct (2 <? kk _); [|injection E1 as <- <- <-; reflexivity].
    apply bind_ret_inv in E1. destruct E1 as (pk1 & _ & E1). cbv beta in E1.
    apply bind_ret_inv in E1. destruct E1 as (sk1 & _ & E1). cbv beta in E1.
    injection E1 as <- <- <-. reflexivity. }
  destruct (_ <=? _)%sc; injection E as <- <- <- <-; eexists; (split; [|reflexivity]); cbn; rewrite Hs.
  - destruct (nlp st) as [? ? ? ? ? ? ? ? ? ? ? ? l]. destruct l. reflexivity.
  - reflexivity.
Qed.

Lemma set_coeffs_calls (st st' : state) ck :
  set_coeffs prob st = Ret (st', ck) -> nlp st' = set_lp (set_cj (cj (lp (nlp st'))) (lp (nlp st))) (nlp st).
Proof.
  intros E. apply set_coeffs_frame in E. tauto.
Qed.

Lemma try_step_calls (st st' : state) ck ek ek1 r :
  arrays st -> kk st <= 5 ->
  try_step prob st = Ret (st', ck, ek, ek1, r) -> attempted st st' r.
Proof.
  intros Ha Hk E. pose proof (try_step_spec prob Hl _ _ _ _ _ _ Ha Hk E) as Ht.
  pose proof (tr_tn _ _ _ _ _ Ht) as Tn. pose proof (tr_cj _ _ _ _ _ Ht) as Cj.
  clear Ht. unfold try_step in E. cbv zeta in E.
  set (sta := on_lp (push_ev _) st) in E.
  assert (F0 : trace (lp (nlp sta)) = CTry (tn (nlp st)) (hh st) (kk st) :: trace (lp (nlp st)) /\
     nre (nlp sta) = nre (nlp st) /\ nje (lp (nlp sta)) = nje (lp (nlp st)) /\
     nsetups (nlp sta) = nsetups (nlp st) /\ ncfl (lp (nlp sta)) = ncfl (lp (nlp st))) by (repeat split).
  clearbody sta. destruct F0 as (F1 & F2 & F3 & F4 & F5).
  apply bind_ret_inv in E. destruct E as ((st1 & ck1) & E1 & E). cbv beta iota in E.
  apply set_coeffs_calls in E1.
  apply bind_ret_inv in E. destruct E as (st2 & E2 & E). cbv beta in E.
  apply predict_frame in E2. destruct E2 as (_ & _ & _ & _ & _ & _ & E2).
  rewrite advance_tn_eq in E2. cbn [nlp on_nlp set_nlp] in E2.
  assert (G : trace (lp (nlp st2)) = trace (lp (nlp sta)) /\
     nre (nlp st2) = nre (nlp sta) /\ nje (lp (nlp st2)) = nje (lp (nlp sta)) /\
     nsetups (nlp st2) = nsetups (nlp sta) /\ ncfl (lp (nlp st2)) = ncfl (lp (nlp sta))).
  { rewrite E2, E1. repeat split. }
  clear E1 E2. destruct G as (G1 & G2 & G3 & G4 & G5).
  apply bind_ret_inv in E. destruct E as ((st3 & r3) & E3 & E). cbv beta iota in E.
  pose proof (nonlinear_solve_frame prob Hl _ _ _ E3) as (_ & _ & _ & _ & _ & _ & _ & _ & _ & K & K').
  apply keep_fields in K. destruct K as (K1 & K2 & _ & K4 & _ & K6).
  apply nonlinear_solve_calls in E3. destruct E3 as (evs & C1 & C2 & C3 & C4 & C5 & C6).
  assert (Hev : forall st4 : state, tn (nlp st4) = tn_next st -> cj (lp (nlp st4)) = cj_of st ->
     tn (nlp st4) = tn (nlp st3) -> cj (lp (nlp st4)) = cj (lp (nlp st3)) ->
     yypredict (nlp st4) = yypredict (nlp st3) -> yppredict (nlp st4) = yppredict (nlp st3) ->
     Forall (call_in st st4) evs).
  { intros st4 Q1 Q2 Q3 Q4 Q5 Q6. eapply Forall_impl; [|exact C2]. intros e.
    destruct e as [t y ypv|t c y ypv|t y ypv| | |t h k| |t y]; cbn; auto.
    - intros (-> & c & -> & ->). split; [congruence|]. exists c. rewrite Q5, Q6, K1, K2. split; [reflexivity|].
      replace (cj_of st) with (cj (lp (nlp st2))) by congruence. reflexivity.
    - intros (-> & ->). split; [reflexivity|congruence]. }
  destruct r3 as [u|e].
  - apply bind_ret_inv in E. destruct E as ((((st4 & a) & b) & r4) & E4 & E). cbv beta iota in E.
    injection E as <- <- <- <- <-. apply test_error_calls in E4. destruct E4 as (l & E4 & El).
    exists evs. rewrite E4, El in *. cbn [lp trace set_lp set_trace nre nje nsetups ncfl tn cj] in *.
    split; [rewrite C1, G1, F1; reflexivity|]. split.
    { apply Hev; rewrite E4; cbn; auto. }
    split; [congruence|]. split; [congruence|]. split; [intros Hn; rewrite C5 by exact Hn; congruence|lia].
  - injection E as <- <- <- <- <-. exists evs.
    split.
    { destruct e as [e|e|]; try contradiction. cbn [fails app]. rewrite C1, G1, F1. reflexivity. }
    split; [apply Hev; auto|]. split; [congruence|]. split; [congruence|].
    split; [intros Hn; rewrite C5 by exact Hn; congruence|lia].
Qed.

(** ** Orders and array sizes *)

Lemma init_fields (st : state) :
  let s := st_init st in
  cfg s = cfg st /\ outer s = outer st /\ rootst s = rootst st /\ dvals s = dvals st /\ cvals s = cvals st /\
  phi s = phi st /\ hh s = hh st /\ nst s = nst st /\ ncfn s = ncfn st /\ netf s = netf st /\
  maxord s = maxord st /\ perf0 s = perf0 st /\ ee s = ee st /\
  tn (nlp s) = tn (nlp st) /\ nre (nlp s) = nre (nlp st) /\ nsetups (nlp s) = nsetups (nlp st) /\
  nje (lp (nlp s)) = nje (lp (nlp st)) /\ ncfl (lp (nlp s)) = ncfl (lp (nlp st)) /\
  trace (lp (nlp s)) = begin_ev st :: trace (lp (nlp st)) /\ ewt (nlp s) = ewt (nlp st) /\
  nwarn (lp (nlp s)) = nwarn (lp (nlp st)) /\ knew s = knew st.
Proof. unfold st_init. cbv zeta. destruct (nst _ =? 0); repeat split. Qed.

Lemma init_kk (st : state) : ordok st -> 1 <= kk (st_init st) <= maxord st.
Proof.
  intros (_ & Hm & Hk & Hu & Hz). unfold st_init. change (nst (on_lp (push_ev (begin_ev st)) st)) with (nst st).
  cbv zeta. destruct (Nat.eqb_spec (nst st) 0) as [Hn|Hn]; cbn; [lia|]. specialize (Hz Hn). lia.
Qed.

(** The attempt whose outcome decides the step. *)
Lemma tries_start (st sta : state) nef :
  ordok st -> tries prob (tn (nlp st)) (st_init st) sta nef ->
  arrays sta /\ 1 <= kk sta <= kk (st_init st) /\ cfg sta = cfg st /\ outer sta = outer st /\
  rootst sta = rootst st /\ dvals sta = dvals st /\
  kused sta = kused (st_init st) /\ hused sta = hused (st_init st) /\ nst sta = nst st.
Proof.
  intros Ho Ht. destruct (init_fields st) as (F1 & F2 & F3 & F4 & F5 & F6 & F7 & F8 & F9 & F10 & F11 & _).
  pose proof (init_kk st Ho) as Hk. destruct Ho as (Ha & _).
  destruct (tries_ord prob _ _ _ _ (arrays_init _ Ha)
     (conj (proj1 Hk) (eq_ind_r (fun m => _ <= m) (proj2 Hk) F11)) Ht)
    as (B1 & B2 & B3 & B4 & B5 & B6 & B7 & B8 & B9).
  repeat (split; [first [assumption|congruence]|]). congruence.
Qed.

Lemma stepped_ord (st st' : state) r :
  ordok st -> stepped prob st st' r ->
  ordok st' /\ cfg st' = cfg st /\ outer st' = outer st /\ rootst st' = rootst st /\
  (nst st' = nst st + (if r then 1 else 0)).
Proof.
  intros Ho (sta & nef & st1 & ck & ek & ek1 & r1 & Ht & Et & Htr & Hc).
  destruct (tries_start _ _ _ Ho Ht) as (B1 & B2 & B3 & B4 & B5 & B6 & B7 & B8 & B9).
  pose proof (init_kk st Ho) as Hk.
  pose proof (tr_ord _ _ _ _ _ Htr) as T1. pose proof (tr_cnt _ _ _ _ _ Htr) as T2.
  pose proof (tr_cfg _ _ _ _ _ Htr) as T3. pose proof (tr_outer _ _ _ _ _ Htr) as T4.
  pose proof (tr_root _ _ _ _ _ Htr) as T5.
  assert (M1 : maxord st1 = maxord st).
  { rewrite B3 in T3. apply cfg_fields in T3. tauto. }
  destruct Ho as (Ha & Hm & Hk0 & Hu & Hz).
  destruct Hc as [(-> & -> & st2 & Hcp & ->)|(e & -> & Hg & Hc)].
  - pose proof (cp_used _ _ _ Hcp) as U1. pose proof (cp_kk _ _ _ Hcp) as U2.
    pose proof (cp_cfg _ _ _ Hcp) as U3. pose proof (cp_outer _ _ _ Hcp) as U4.
    pose proof (cp_root _ _ _ Hcp) as U5. pose proof (cp_arrays _ _ _ Hcp) as U6.
    assert (M2 : maxord st2 = maxord st1) by (apply cfg_fields in U3; tauto).
    pinj. split.
    { split; [exact U6|]. cbn. split; [lia|]. split; [lia|]. split; [lia|]. intros _. lia. }
    split; [transitivity (cfg st2); [reflexivity|congruence]|].
    split; [transitivity (outer st2); [reflexivity|congruence]|].
    split; [transitivity (rootst st2); [reflexivity|congruence]|]. cbn. lia.
  - pose proof (gu_keep _ _ _ _ Hg) as U1. pose proof (gu_cfg _ _ _ _ Hg) as U3.
    pose proof (gu_outer _ _ _ _ Hg) as U4. pose proof (gu_root _ _ _ _ Hg) as U5.
    pose proof (gu_arrays _ _ _ _ Hg) as U6.
    assert (M2 : maxord st' = maxord st1) by (apply cfg_fields in U3; tauto).
    assert (Hr : (if r then 1 else 0) = 0).
    { destruct Hc as [(_ & _ & _ & -> & _)|(_ & -> & _)]; reflexivity. }
    rewrite Hr. pinj. split.
    { split; [exact U6|]. split; [lia|]. split; [lia|].
      assert (Hku : kused st' = kused (st_init st)) by congruence.
      rewrite Hku. unfold st_init in *. change (nst (on_lp (push_ev (begin_ev st)) st)) with (nst st) in *. cbv zeta in *. destruct (Nat.eqb_spec (nst st) 0) as [Hn|Hn].
      - cbn in *. split; [lia|]. intros Hnz. exfalso. apply Hnz. congruence.
      - cbn in *. split; [lia|]. intros _. specialize (Hz Hn). lia. }
    split; [congruence|]. split; [congruence|]. split; [congruence|]. lia.
Qed.

Lemma core_arrays (a b : state) : core b = core a ->
  length (cvals b) = length (cvals a) -> length (dvals b) = length (dvals a) -> arrays a -> arrays b.
Proof.
  intros Hc H1' H2'. apply core_fields in Hc. unfold arrays.
  destruct Hc as (_ & -> & -> & -> & -> & -> & -> & _). rewrite H1', H2'. auto.
Qed.

Lemma shell_ord (a b : state) : shell prob a b -> ordok a -> ordok b.
Proof.
  intros S (Ha & Hm & Hk & Hu & Hz). split.
  { eapply core_arrays; [apply S|apply S|apply S|exact Ha]. }
  pose proof (core_fields _ _ (sh_core _ _ _ S)) as
    (C1 & _ & _ & _ & _ & _ & _ & -> & -> & _ & _ & _ & _ & _ & _ & -> & _).
  apply cfg_fields in C1. destruct C1 as (_ & _ & _ & _ & _ & _ & _ & -> & _). auto.
Qed.

Lemma limit_fields (st : state) ts : exists h, limit_to_tstop st ts = set_hh h st.
Proof.
  unfold limit_to_tstop. destruct (_ <? _)%sc; [eauto|]. exists (hh st). destruct st; reflexivity.
Qed.

Lemma lims_fields (a b : state) : lims a b -> exists h, b = set_hh h a.
Proof.
  intros [(_ & ->)|(ts & _ & _ & ->)]; [|apply limit_fields]. exists (hh a). destruct a; reflexivity.
Qed.

Lemma lims_ord (a b : state) : lims a b -> ordok a -> ordok b.
Proof. intros Hlm. apply lims_fields in Hlm. destruct Hlm as (h & ->). auto. Qed.

Lemma first_ord (a : state) tout x :
  nst a = 0 -> first_call prob ewt_set a tout = Ret x -> ordok a ->
  ordok (match x with inl (s, _) => s | inr s => s end).
Proof.
  intros Hn E (Ha & Hm & Hk & Hu & Hz). pose proof (first_call_frame prob ewt_set _ _ _ E) as F. cbv zeta in F.
  destruct F as (F1 & _ & _ & _ & F2).
  apply fkeep_fields in F1.
  destruct F1 as (C1 & P1 & P2 & P3 & P4 & P5 & N1 & _ & _ & _ & _ & _ & _ & _ & V1 & V2 & _).
  apply cfg_fields in C1. destruct C1 as (_ & _ & _ & _ & _ & _ & _ & C1 & _).
  destruct Ha as (A1 & A2 & A3 & A4 & A5 & A6 & A7 & A8).
  destruct x as [(s & m)|s].
  - destruct F2 as (F2 & _ & F3 & _). injection F3 as F3 F4.
    unfold ordok, arrays. rewrite F2, P1, P2, P3, P4, P5, V1, V2, N1, C1, F3, F4. auto 12.
  - destruct F2 as (F2 & F3 & _). injection F3 as F3 F4. rewrite A1 in F2. specialize (F2 ltac:(lia)).
    unfold ordok, arrays. rewrite F2, upd_length, P1, P2, P3, P4, P5, V1, V2, N1, C1, F3, F4.
    repeat split; auto; lia.
Qed.

Lemma piece_ord (a b : state) : ordok a -> piece prob ewt_set a b -> ordok b.
Proof.
  intros Ho P. destruct P as [s s' S|s s' Hz L|s s' tout m Hn E|s s' tout Hn E|fuel s s' r L F E].
  - exact (shell_ord _ _ S Ho).
  - exact (lims_ord _ _ L Ho).
  - exact (first_ord _ _ _ Hn E Ho).
  - exact (first_ord _ _ _ Hn E Ho).
  - apply (step_spec prob Hl) in E; [|exact Ho]. exact (proj1 (stepped_ord _ _ _ Ho E)).
Qed.

Lemma new_fields yy0 yp0 (st : state) : ida_new prob yy0 yp0 = Ret st ->
  arrays st /\ kk st = 0 /\ kused st = 0 /\ nst st = 0 /\ nrtfn st = nr /\ length (glo st) = nr /\
  constraints_set st = false /\ perf0 st = (0, 0, 0, 0) /\ perf_now st = (0, 0, 0, 0) /\
  trace (lp (nlp st)) = [] /\ netf st = 0 /\ nre (nlp st) = 0 /\ nsetups (nlp st) = 0 /\
  nje (lp (nlp st)) = 0 /\ nge st = 0 /\ phi st = yy0 :: yp0 :: repeat (vzero n) 4 /\
  yy (nlp st) = yy0 /\ yp (nlp st) = yp0 /\ length yy0 = n /\ length yp0 = n.
Proof.
  unfold ida_new. destruct (Nat.eqb_spec (length yy0) n) as [H1'|]; [|discriminate].
  destruct (Nat.eqb_spec (length yp0) n) as [H2'|]; [|discriminate]. cbn [andb].
  intros E. apply ret_inj in E. subst st.
  assert (Hv : forall k, length (@vzero T _ k) = k) by (intros k; unfold vzero; apply repeat_length).
  repeat split; auto; cbn; auto.
Qed.

Definition config_ok (c : @config T) : Prop := 1 <= g_maxord c <= 5.

Lemma new_ord c yy0 yp0 (st : state) : config_ok c -> ida_new prob yy0 yp0 = Ret st -> ordok (configure c st).
Proof.
  intros Hc E. apply new_fields in E.
  destruct E as (A & K1 & K2 & N & _). unfold config_ok in Hc.
  split; [exact A|]. cbn. rewrite K1, K2. split; [exact Hc|]. split; [lia|]. split; [lia|].
  intros Hz. exfalso. apply Hz. exact N.
Qed.

Lemma reach_ord c yy0 yp0 (st : state) :
  config_ok c -> reach prob ewt_set c yy0 yp0 st -> ordok st.
Proof.
  intros Hc. apply (reach_inv prob ewt_set c yy0 yp0 ordok).
  - intros st0 E. exact (new_ord _ _ _ _ Hc E).
  - exact piece_ord.
Qed.

End Inv.
