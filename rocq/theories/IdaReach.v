(** * IdaReach: the life of an integrator object as a sequence of pieces *)
Require Import List Arith Bool Lia Relations.
Import ListNotations.
Require Import Verif.Base Verif.Scalar Verif.Norms Verif.Newton Verif.NewtonSpec Verif.IdaState
  Verif.IdaNls Verif.IdaCore Verif.IdaRoots Verif.IdaSolve Verif.BaseFacts Verif.NewtonFacts
  Verif.IdaFacts Verif.IdaLoops Verif.IdaStep Verif.IdaSpec Verif.IdaShell.

Lemma ret_inj {A} (a b : A) : Ret a = Ret b -> a = b.
Proof. congruence. Qed.

Section Reach.
Context {T LSt NSt : Type} `{Scalar T} `{LSolver T LSt} `{NLSolver T NSt}.
Variable prob : problem T.
Variable ewt_set : list T -> list T.
Notation n := (model_size prob).
Notation nr := (num_roots prob).
Notation state := (ida T LSt NSt).
Notation answer := (state * T * result solve_status (err T))%type.

(** ** One internal step *)

(** State at the start of the first attempt. *)
Definition st_init (st0 : state) : state :=
  let st := on_lp (push_ev (begin_ev st0)) st0 in
  if nst st =? 0 then
    set_ns 0 (set_phase 0 (on_lp (set_cj (srecip (hh st)))
      (set_psi (upd (psi st) 0 (hh st)) (set_hused szero (set_kused 0 (set_kk 1 st))))))
  else st.

Lemma step_init_eq (st : state) : 1 <= length (psi st) -> step_init (on_lp (push_ev (begin_ev st)) st) = Ret (st_init st).
Proof.
  intros L. unfold step_init, st_init. cbv zeta. destruct (nst _ =? 0); [|reflexivity].
  rewrite aset_ret by exact L. reflexivity.
Qed.

(** States at the start of an attempt, with the number of failures so far. *)
Inductive tries (t0 : T) (st0 : state) : state -> nat -> Prop :=
| tries_0 : tries t0 st0 st0 0
| tries_S st nef st1 ck ek ek1 st' :
    tries t0 st0 st nef ->
    try_step prob st = Ret (st1, ck, ek, ek1, Err (EIda TestFail)) ->
    tried prob st st1 ck (Err (EIda TestFail)) ->
    nef + 1 < maxnef st \/ nef <= 1 ->
    retried prob st1 st' t0 nef ->
    tries t0 st0 st' (nef + 1).

(** The state left by an accepted step. *)
Definition st_commit (ck : T) (st : state) : state :=
  set_ee (vscale n ck (ee st)) (on_lp (push_ev (CStep (tn (nlp st)) (yy (nlp st)))) st).

Definition stepped (st st' : state) (r : result unit (err T)) : Prop :=
  exists sta nef st1 ck ek ek1 r1,
    tries (tn (nlp st)) (st_init st) sta nef /\
    try_step prob sta = Ret (st1, ck, ek, ek1, r1) /\ tried prob sta st1 ck r1 /\
    ((r1 = Ok tt /\ r = Ok tt /\ exists st2, completed prob st1 st2 /\ st' = st_commit ck st2) \/
     (exists e, r1 = Err e /\ gave_up prob st1 st' (tn (nlp st)) /\
        (e = EIda TestFail /\ maxnef sta <= nef + 1 /\ 2 <= nef /\ r = Err EFmt /\
           netf st' = netf st1 + 1 /\ ncfn st' = ncfn st1 \/
         (exists m, e = ENls m) /\ r = Err e /\ netf st' = netf st1 /\ ncfn st' = ncfn st1 + 1))).

(** Orders and array sizes while stepping. *)
Definition ordok (st : state) : Prop :=
  arrays st /\ 1 <= maxord st <= 5 /\ kk st <= maxord st /\ kused st <= maxord st /\
  (nst st <> 0 -> 1 <= kk st /\ 1 <= kused st /\ kk st <= kused st + 1).

Lemma arrays_init (st : state) : arrays st -> arrays (st_init st).
Proof.
  unfold st_init. change (nst (on_lp (push_ev (begin_ev st)) st)) with (nst st). cbv zeta. destruct (nst st =? 0); [|auto].
  unfold arrays. cbn. rewrite upd_length. auto.
Qed.

Lemma maxord_tried (st st1 : state) ck r : tried prob st st1 ck r -> maxord st1 = maxord st.
Proof. intros Ht. pose proof (cfg_fields _ _ (tr_cfg _ _ _ _ _ Ht)). tauto. Qed.

Lemma tries_ord t0 (st0 sta : state) nef :
  arrays st0 -> 1 <= kk st0 <= maxord st0 ->
  tries t0 st0 sta nef ->
  arrays sta /\ 1 <= kk sta <= kk st0 /\ cfg sta = cfg st0 /\ outer sta = outer st0 /\
  rootst sta = rootst st0 /\ dvals sta = dvals st0 /\
  kused sta = kused st0 /\ hused sta = hused st0 /\ nst sta = nst st0.
Proof.
  intros Ha Hk. induction 1 as [|st nef st1 ck ek ek1 st' Ht IH Et Htr Hn Hrt].
  { split; [exact Ha|]. split; [lia|]. auto 10. }
  destruct IH as (I1 & I2 & I3 & I4 & I5 & I6 & I7 & I8 & I9).
  split; [apply Hrt|]. split.
  { rewrite (rt_kk _ _ _ _ _ Hrt). pose proof (tr_res _ _ _ _ _ Htr) as (Hkn & _).
    destruct (nef <=? 1); lia. }
  split; [rewrite (rt_cfg _ _ _ _ _ Hrt), (tr_cfg _ _ _ _ _ Htr); exact I3|].
  split; [rewrite (rt_outer _ _ _ _ _ Hrt), (tr_outer _ _ _ _ _ Htr); exact I4|].
  split; [rewrite (rt_root _ _ _ _ _ Hrt), (tr_root _ _ _ _ _ Htr); exact I5|].
  pose proof (rt_keep _ _ _ _ _ Hrt) as K1. pose proof (tr_ord _ _ _ _ _ Htr) as K2.
  pose proof (tr_h _ _ _ _ _ Htr) as K3. pose proof (tr_cnt _ _ _ _ _ Htr) as K4.
  pose proof (tr_vals _ _ _ _ _ Htr) as K5. pose proof (rt_dvals _ _ _ _ _ Hrt) as K6.
  pinj. do 3 (split; [congruence|]). congruence.
Qed.

Lemma step_spec (Hl : @nls_lawful T NSt _) fuel (st st' : state) r :
  ordok st -> step prob fuel st = Ret (st', r) -> stepped st st' r.
Proof.
  intros (Ha & Hm & Hk & Hu & Hz) E. unfold step in E.
  rewrite step_init_eq in E by (destruct Ha as (_ & -> & _); lia). rewrite bind_ret in E.
  assert (A0 : arrays (st_init st)) by (apply arrays_init; exact Ha).
  assert (K0 : 1 <= kk (st_init st) <= maxord (st_init st)).
  { unfold st_init. change (nst (on_lp (push_ev (begin_ev st)) st)) with (nst st). cbv zeta.
    destruct (Nat.eqb_spec (nst st) 0) as [Hn|Hn]; cbn; [lia|]. specialize (Hz Hn). lia. }
  assert (M0 : maxord (st_init st) = maxord st).
  { unfold st_init. cbv zeta. destruct (nst _ =? 0); reflexivity. }
  unfold stepped. set (st0 := st_init st) in *. clearbody st0. set (t0 := tn (nlp st)) in *. clearbody t0.
  apply bind_ret_inv in E. destruct E as ((s & rs) & E1 & E). cbv beta iota in E.
  destruct (step_loop_ind prob Hl (tries t0 st0) t0) with (4 := E1)
    as (sta & nefa & st1 & ck & ek & ek1 & r1 & P1 & _ & P2 & P3 & P4).
  - intros s1 nef Ht. destruct (tries_ord _ _ _ _ A0 K0 Ht) as (B1 & B2 & _). split; [exact B1|lia].
  - intros s1 nef s2 ck ek ek1 s3 Q1 Q2 Q3 Q4 Q5. econstructor; eassumption.
  - constructor.
  - exists sta, nefa, st1, ck, ek, ek1, r1. split; [exact P1|]. split; [exact P2|]. split; [exact P3|].
    destruct P4 as [(-> & -> & ->)|(e & -> & Hg & Hc)].
    + left. split; [reflexivity|].
      destruct (tries_ord _ _ _ _ A0 K0 P1) as (B1 & B2 & B3 & _).
      apply cfg_fields in B3. destruct B3 as (_ & _ & _ & _ & _ & _ & _ & B3 & _).
      pose proof (tr_ord _ _ _ _ _ P3) as K2. pinj.
      pose proof (tr_res _ _ _ _ _ P3) as (_ & _ & _ & Hkn & _).
      pose proof (maxord_tried _ _ _ _ P3) as M1.
      destruct (complete_step_spec prob st1 ek ek1) as (st2 & E2 & C2);
        [apply P3|lia|lia|replace (kk st1) with (kk sta); exact Hkn|].
      rewrite E2 in E. rewrite bind_ret in E. change (Ret (st_commit ck st2, @Ok unit (err T) tt) = Ret (st', r)) in E.
      remember (st_commit ck st2) as s2 eqn:Es. clear E1 E2. injection E as <- <-.
      split; [reflexivity|]. exists st2. auto.
    + right. exists e. split; [reflexivity|]. 
      destruct Hc as [(-> & Q1 & Q2 & -> & Q3)|(Hm' & -> & Q3)]; injection E as <- <-;
        (split; [exact Hg|]); [left; auto|right; auto].
Qed.

(** ** Pieces of a life *)

(** The step size is the result of the reduction in front of the stop time. *)
Definition limited (st : state) : Prop :=
  forall ts, tstop st = Some ts ->
    exists h0, hh st = if (szero <? (tn (nlp st) + h0 - ts) * h0)%sc
                       then ((ts - tn (nlp st)) * (sone - sfour * seps))%sc else h0.

(** Some step was completed, or the first-call block has just been passed. *)
Definition fresh (st : state) : Prop :=
  nst st <> 0 \/
  exists a tout s, nst a = 0 /\ first_call prob ewt_set a tout = Ret (inr s) /\ shell prob s st.

Inductive piece : state -> state -> Prop :=
| p_shell st st' : shell prob st st' -> piece st st'
| p_lims st st' : nst st <> 0 -> lims st st' -> piece st st'
| p_first_no st st' tout m :
    nst st = 0 -> first_call prob ewt_set st tout = Ret (inl (st', m)) -> piece st st'
| p_first_ok st st' tout :
    nst st = 0 -> first_call prob ewt_set st tout = Ret (inr st') -> piece st st'
| p_step fuel st st' r :
    limited st -> fresh st -> step prob fuel st = Ret (st', r) -> piece st st'.

Definition pieces : state -> state -> Prop := clos_refl_trans_n1 _ piece.

Lemma pieces_inv (I : state -> Prop) :
  (forall a b, I a -> piece a b -> I b) -> forall a b, pieces a b -> I a -> I b.
Proof. intros HI a b Hp. induction Hp; eauto. Qed.

Lemma pieces_trans a b c : pieces a b -> pieces b c -> pieces a c.
Proof. intros P Q. induction Q as [|x y Hxy Q IH]; [exact P|]. eapply Relation_Operators.rtn1_trans; eassumption. Qed.

Lemma piece1 a b : piece a b -> pieces a b.
Proof. intros P. econstructor; [exact P|constructor]. Qed.

Lemma lims_limited (st st' : state) : lims st st' -> limited st'.
Proof.
  intros [(Hn & ->)|(t1 & E1 & _ & ->)] ts Ht; [congruence|].
  assert (Ht' : t1 = ts).
  { revert Ht. unfold limit_to_tstop. destruct (_ <? _)%sc; cbn; congruence. }
  subst t1. exists (hh st). unfold limit_to_tstop.
  destruct (_ <? _)%sc eqn:Ec; cbn; rewrite Ec; reflexivity.
Qed.

Lemma shell_limited (st st' : state) : shell prob st st' -> limited st -> limited st'.
Proof.
  intros S L ts Ht. pose proof (core_fields _ _ (sh_core _ _ _ S)) as D.
  destruct D as (_ & _ & _ & _ & _ & _ & _ & _ & _ & _ & _ & _ & D1 & _ & _ & _ & _ & _ & D2 & _).
  destruct (sh_tstop _ _ _ S) as [E|E]; [|congruence]. rewrite D1, D2. apply L. congruence.
Qed.

Lemma lims_tretlast (st : state) : limited st -> forall t, limited (set_tretlast t st).
Proof. intros L t ts. apply L. Qed.

(** [first_step] ends with the same reduction. *)
Lemma first_step_limited (st st' : state) tout :
  first_step st tout = Ret (inr st') -> limited st'.
Proof.
  unfold first_step. intros E.
  destruct (_ =? _)%sc; [discriminate|]. cbv zeta in E. destruct (_ <? _)%sc; [discriminate|].
  destruct (_ && _); [discriminate|].
  apply bind_ret_inv in E. destruct E as (s & _ & E). cbv beta in E.
  destruct (sone <? _)%sc in E.
  - set (s1 := set_hh _ s) in E. clearbody s1.
    destruct (tstop s1) as [ts|] eqn:Ets.
    + destruct (_ <=? _)%sc; [discriminate|]. injection E as <-. intros t2 Ht.
      assert (t2 = ts). { revert Ht. unfold limit_to_tstop. destruct (_ <? _)%sc; cbn; congruence. }
      subst t2. exists (hh s1). unfold limit_to_tstop.
      destruct (_ <? _)%sc eqn:Ec; cbn; rewrite Ec; reflexivity.
    + injection E as <-. intros ts Ht. congruence.
  - destruct (tstop s) as [ts|] eqn:Ets.
    + destruct (_ <=? _)%sc; [discriminate|]. injection E as <-. intros t2 Ht.
      assert (t2 = ts). { revert Ht. unfold limit_to_tstop. destruct (_ <? _)%sc; cbn; congruence. }
      subst t2. exists (hh s). unfold limit_to_tstop.
      destruct (_ <? _)%sc eqn:Ec; cbn; rewrite Ec; reflexivity.
    + injection E as <-. intros ts Ht. congruence.
Qed.

(** What the root search never touches. *)
Definition rsame (st st' : state) : Prop :=
  core st' = core st /\ tstop st' = tstop st /\ cvals st' = cvals st /\ dvals st' = dvals st /\
  perf0 st' = perf0 st /\ ewt (nlp st') = ewt (nlp st) /\
  nwarn (lp (nlp st')) = nwarn (lp (nlp st)) /\ tretlast st' = tretlast st.

Lemma rsame_trans a b c : rsame a b -> rsame b c -> rsame a c.
Proof.
  intros (A1 & A2 & A3 & A4 & A5 & A6 & A7 & A8) (B1 & B2 & B3 & B4 & B5 & B6 & B7 & B8).
  repeat split; etransitivity; eassumption.
Qed.

Lemma call_root_rsame (st st' : state) t y ypv g :
  call_root prob st t y ypv = (st', g) ->
  rsame st st' /\ trace (lp (nlp st')) = CRoot t y ypv :: trace (lp (nlp st)) /\ length g = nr /\
  nge st' = nge st.
Proof. unfold call_root. intros E. injection E as <- <-. rewrite vtab_length. repeat split. Qed.

Lemma r_check1_frame (st st' : state) :
  r_check1 prob st = Ret st' ->
  rsame st st' /\ length (glo st') = nr /\
  exists evs, trace (lp (nlp st')) = evs ++ trace (lp (nlp st)) /\
    Forall (fun e => is_root e = true) evs /\ nge st' = count is_root evs.
Proof.
  unfold r_check1. intros E. cbv zeta in E.
  set (s1 := set_ttol _ _) in E.
  assert (F1 : rsame st s1 /\ trace (lp (nlp s1)) = trace (lp (nlp st))) by (repeat split).
  clearbody s1. destruct F1 as (F1 & T1).
  apply bind_ret_inv in E. destruct E as (p0 & _ & E). cbv beta in E.
  apply bind_ret_inv in E. destruct E as (p1 & _ & E). cbv beta in E.
  destruct (call_root prob s1 (tlo s1) p0 p1) as (s2 & g) eqn:Ec. apply call_root_rsame in Ec.
  destruct Ec as (F2 & T2 & L2 & _).
  set (s3 := set_nge 1 (set_glo g s2)) in E.
  assert (F3 : rsame s2 s3 /\ trace (lp (nlp s3)) = trace (lp (nlp s2)) /\ glo s3 = g /\ nge s3 = 1)
    by (repeat split). clearbody s3. destruct F3 as (F3 & T3 & G3 & N3).
  set (s4 := set_gactive _ s3) in E.
  assert (F4 : rsame s3 s4 /\ trace (lp (nlp s4)) = trace (lp (nlp s3)) /\ glo s4 = glo s3 /\ nge s4 = nge s3)
    by (repeat split). clearbody s4. destruct F4 as (F4 & T4 & G4 & N4).
  pose proof (rsame_trans _ _ _ F1 (rsame_trans _ _ _ F2 (rsame_trans _ _ _ F3 F4))) as F14.
  destruct (existsb _ _) in E.
  - set (s5 := on_nlp _ s4) in E.
    assert (F5 : rsame s4 s5 /\ trace (lp (nlp s5)) = trace (lp (nlp s4)) /\ glo s5 = glo s4 /\ nge s5 = nge s4)
      by (repeat split). clearbody s5. destruct F5 as (F5 & T5 & G5 & N5).
    destruct (call_root prob s5 _ _ p1) as (s6 & g2) eqn:Ec. apply call_root_rsame in Ec.
    destruct Ec as (F6 & T6 & L6 & N6).
    set (s7 := set_nge _ (set_ghi g2 s6)) in E.
    assert (F7 : rsame s6 s7 /\ trace (lp (nlp s7)) = trace (lp (nlp s6)) /\ nge s7 = nge s6 + 1)
      by (repeat split). clearbody s7. destruct F7 as (F7 & T7 & N7).
    apply ret_inj in E. subst st'.
    match goal with |- rsame st ?s /\ _ => assert (F8 : rsame s7 s) by (repeat split) end.
    split; [exact (rsame_trans _ _ _ F14 (rsame_trans _ _ _ F5 (rsame_trans _ _ _ F6 (rsame_trans _ _ _ F7 F8))))|].
    split; [cbn; apply vtab_length|]. eexists [_; _]. cbn [trace lp nlp set_glo set_gactive nge].
    rewrite T7, T6, T5, T4, T3, T2, T1. split; [reflexivity|]. split; [repeat constructor|].
    cbn. rewrite N7, N6, N5, N4, N3. reflexivity.
  - apply ret_inj in E. subst st'. split; [exact F14|]. split; [congruence|].
    eexists [_]. rewrite T4, T3, T2, T1. split; [reflexivity|]. split; [repeat constructor|].
    cbn. congruence.
Qed.

(** The first-call block: what is kept whether or not the call is rejected,
    and what an accepted call sets. *)
Definition fkeep (st : state) :=
  (cfg st, (psi st, alpha st, beta st, sigma st, gamma st),
   (knew st, phase st, ns st),
   (hused st, rr st, cjlast st, ee st, delta st),
   (nst st, ncfn st, netf st, nls st),
   (let s := nlp st in
    ((yypredict s, yppredict s, savres s, tn s), (ss s, oldnrm s, nre s, nsetups s))),
   (let l := lp (nlp st) in
    ((lp_ls l, lp_matj l, lp_x l, lp_sqrtn l, lp_eplifac l), (nje l, nli l, ncfl l),
     (cj l, cjold l, cjratio l))),
   (tstop st, cvals st, dvals st, perf0 st, nwarn (lp (nlp st)), tretlast st)).

Lemma first_step_frame (st : state) tout x :
  first_step st tout = Ret x ->
  match x with
  | inl (st', m) => exists h, st' = set_hh h st
  | inr st' => exists h, st' = set_hh h st
  end.
Proof.
  assert (Hs : forall s : state, (exists h, s = set_hh h st) -> forall h, exists h', set_hh h s = set_hh h' st).
  { intros s (h & ->) h'. exists h'. reflexivity. }
  assert (H00 : exists h, st = set_hh h st) by (exists (hh st); destruct st; reflexivity).
  unfold first_step. cbv zeta. intros E.
  destruct (_ =? _)%sc; [injection E as <-; exact H00|]. destruct (_ <? _)%sc; [injection E as <-; exact H00|].
  pose proof (Hs _ H00 (hin st)) as H01. set (s := set_hh (hin st) st) in *. clearbody s.
  destruct (_ && _); [injection E as <-; exact H01|].
  apply bind_ret_inv in E. destruct E as (s1 & Ey & E). cbv beta in E.
  assert (H02 : exists h, s1 = set_hh h st).
  { destruct (hh s =? szero)%sc; [|injection Ey as <-; exact H01].
    apply bind_ret_inv in Ey. destruct Ey as (p1 & _ & Ey). cbv beta in Ey.
    pose proof (Hs _ H01 (spt001 * sabs (tout - tn (nlp st)))%sc) as H03.
    set (s2 := set_hh _ s) in *. clearbody s2.
    destruct (stwo / hh s2 <? _)%sc in Ey;
      [pose proof (Hs _ H03 (shalf / wrms_norm (idv s2) p1 (ewt (nlp s2)) (suppressalg s2))%sc) as H04;
       set (s3 := set_hh (shalf / _)%sc s2) in *; clearbody s3|rename H03 into H04; rename s2 into s3];
      (destruct (tout <? _)%sc in Ey;
       [pose proof (Hs _ H04 (- hh s3)%sc) as H06|rename H04 into H06];
       apply ret_inj in Ey; subst s1; exact H06). }
  clear Ey.
  assert (H05 : exists s3, (exists h, s3 = set_hh h st) /\
     match tstop s3 with
     | Some ts => if ((ts - tn (nlp s3)) * hh s3 <=? szero)%sc then Ret (inl (s3, TstopBehind))
                  else Ret (inr (limit_to_tstop s3 ts))
     | None => Ret (inr s3)
     end = Ret x).
  { destruct (sone <? _)%sc in E; [|eauto]. eexists. split; [|exact E]. apply (Hs _ H02). }
  destruct H05 as (s3 & H05 & E'). clear E. rename E' into E.
  destruct (tstop s3) as [ts|]; [|injection E as <-; exact H05].
  destruct (_ <=? _)%sc; injection E as <-; [exact H05|].
  unfold limit_to_tstop. destruct (_ <? _)%sc; [apply (Hs _ H05)|exact H05].
Qed.

Lemma first_call_frame (st : state) tout x :
  first_call prob ewt_set st tout = Ret x ->
  let st' := match x with inl (s, _) => s | inr s => s end in
  fkeep st' = fkeep st /\ setup_done st' = true /\
  ewt (nlp st') = (if setup_done st then ewt (nlp st) else ewt_set (row (phi st) 0)) /\
  (length (glo st) = nr -> length (glo st') = nr) /\
  (match x with
   | inl _ => phi st' = phi st /\ rootst st' = rootst st /\ (kk st', kused st') = (kk st, kused st) /\
       nlp st' = set_ewt (ewt (nlp st')) (nlp st) /\ eps_newt st' = eps_newt st
   | inr _ => (1 < length (phi st) -> phi st' = upd (phi st) 1 (vscale n (hh st') (row (phi st) 1))) /\
       (kk st', kused st') = (0, 0) /\
       limited st' /\ h0u st' = hh st' /\ eps_newt st' = epcon st' /\
       toldel (nlp st') = (spt0001 * eps_newt st')%sc /\
       exists evs, trace (lp (nlp st')) = evs ++ trace (lp (nlp st)) /\
         Forall (fun e => is_root e = true) evs /\
         nge st' = (if 0 <? nrtfn st then count is_root evs else nge st)
   end).
Proof.
  unfold first_call. intros E. cbv zeta.
  apply bind_ret_inv in E. destruct E as (s0 & E0 & E). cbv beta in E.
  assert (H0' : exists w, s0 = set_setup_done true (on_nlp (set_ewt w) st) /\
     w = if setup_done st then ewt (nlp st) else ewt_set (row (phi st) 0)).
  { destruct (setup_done st) eqn:Es.
    - injection E0 as <-. exists (ewt (nlp st)). split; [|reflexivity].
      destruct st as [? ? ? ? ? ? ? ? ? ? ? ? ? ? ? ? ? ? ? ? ? ? ? ? ? ? ? ? ? ? ? ? ? ? ? ? ? ? ? ? ? ? ? ? ? ? ? ? ? ? ? ? ? ? ? ? nlp0].
      destruct nlp0. cbn in *. subst. reflexivity.
    - unfold initial_setup in E0. apply bind_ret_inv in E0. destruct E0 as (s1 & E1 & E0).
      apply bind_ret_inv in E1. destruct E1 as (p0 & Ep & E1). cbv beta in *.
      apply aget_inv in Ep. destruct Ep as (_ & Ep). specialize (Ep []). fold (row (phi st) 0) in Ep.
      injection E1 as <-. injection E0 as <-. exists (ewt_set p0). rewrite Ep. auto. }
  clear E0. destruct H0' as (w & -> & Hw).
  apply bind_ret_inv in E. destruct E as (r & Er & E). cbv beta in E.
  destruct r as [(s1 & m)|s1].
  - apply first_step_frame in Er. destruct Er as (h & ->). injection E as <-.
    split; [reflexivity|]. split; [reflexivity|]. split; [exact Hw|]. split; [auto|].
    do 4 (split; [reflexivity|]). reflexivity.
  - pose proof (first_step_limited _ _ _ Er) as Lim. apply first_step_frame in Er. destruct Er as (h & ->).
    apply bind_ret_inv in E. destruct E as (s2 & E2 & E). cbv beta in E.
    apply bind_ret_inv in E. destruct E as (p1 & Ep & E). cbv beta in E.
    apply bind_ret_inv in E. destruct E as (ph & Eph & E). cbv beta in E. injection E as <-.
    assert (F : fkeep s2 = fkeep st /\ setup_done s2 = true /\ ewt (nlp s2) = w /\
      (length (glo st) = nr -> length (glo s2) = nr) /\ phi s2 = phi st /\ (kk s2, kused s2) = (0, 0) /\
      limited s2 /\ h0u s2 = hh s2 /\
      exists evs, trace (lp (nlp s2)) = evs ++ trace (lp (nlp st)) /\
         Forall (fun e => is_root e = true) evs /\
         nge s2 = (if 0 <? nrtfn st then count is_root evs else nge st)).
    { change (nrtfn (set_kused _ _)) with (nrtfn st) in E2. destruct (0 <? nrtfn st).
      - set (sx := set_kused 0 _) in E2.
        assert (Fx : fkeep sx = fkeep st /\ setup_done sx = true /\ ewt (nlp sx) = w /\ phi sx = phi st /\
           (kk sx, kused sx) = (0, 0) /\ limited sx /\ h0u sx = hh sx /\ trace (lp (nlp sx)) = trace (lp (nlp st)) /\
           tretlast sx = tretlast st)
          by (split; [reflexivity|]; do 4 (split; [reflexivity|]); split; [exact Lim|]; repeat split; reflexivity).
        clearbody sx. destruct Fx as (F1 & F2 & F3 & F4 & F5 & F6 & F7 & F8 & F9).
        apply r_check1_frame in E2.
        destruct E2 as ((G1 & G2 & G3 & G4 & G6 & G7 & G8 & Ht) & G5 & evs & G9 & G10 & G11).
        assert (Hf : fkeep s2 = fkeep sx /\ phi s2 = phi sx /\ kk s2 = kk sx /\ kused s2 = kused sx /\ h0u s2 = h0u sx /\ hh s2 = hh sx /\ setup_done s2 = setup_done sx /\ tn (nlp s2) = tn (nlp sx)).
        { assert (Gc : cfg s2 = cfg sx) by (exact (f_equal (fun x => fst (fst (fst (fst (fst (fst (fst x))))))) G1)).
          unfold core in G1. cbv zeta in G1. unfold fkeep. cbv zeta. rewrite G2, G3, G4, G6, G8, Ht, Gc.
          injection G1. intros. repeat split; congruence. }
        destruct Hf as (K1 & K2 & K3 & K4 & K5 & K6 & K8 & K7).
        split; [congruence|]. split; [congruence|]. split; [congruence|]. split; [auto|].
        split; [congruence|]. split; [congruence|]. split.
        { intros ts Hts. rewrite K6, K7. apply F6. congruence. }
        split; [congruence|]. exists evs. rewrite G9, F8. auto.
      - injection E2 as <-. split; [reflexivity|]. split; [reflexivity|]. split; [reflexivity|]. split; [auto|].
        do 2 (split; [reflexivity|]). split; [exact Lim|]. split; [reflexivity|]. exists []. auto. }
    clear E2. destruct F as (F1 & F2 & F3 & F4 & F5 & F6 & F7 & F8 & F9).
    split; [exact F1|]. split; [exact F2|]. split; [cbn; congruence|]. split; [exact F4|]. split.
    { intros Hl. apply aget_inv in Ep. destruct Ep as (_ & Ep). specialize (Ep []).
      rewrite F5 in *. fold (row (phi st) 1) in Ep. unfold aset in Eph. 
      destruct (_ <? _); [|discriminate]. injection Eph as <-. cbn. rewrite Ep. reflexivity. }
    split; [exact F6|]. split; [exact F7|]. split; [exact F8|]. do 2 (split; [reflexivity|]). exact F9.
Qed.

(** ** A call of [solve] is a sequence of pieces *)

Lemma pieces_snoc a b c : pieces a b -> piece b c -> pieces a c.
Proof. intros P Q. econstructor; eassumption. Qed.
Lemma pieces_shell a b c : pieces a b -> shell prob b c -> pieces a c.
Proof. intros P Q. eapply pieces_snoc; [exact P|apply p_shell; exact Q]. Qed.

Lemma solve_loop_ind (I : state -> nat -> T -> Prop) (Post : state -> T -> result solve_status (err T) -> Prop)
    rfuel tout itask :
  (forall st nl tret st' t r, I st nl tret ->
     pre_step prob ewt_set st tret nl = Ret (inl (st', t, r)) -> Post st' t r) ->
  (forall st nl tret st1 st2 e st' t r, I st nl tret ->
     pre_step prob ewt_set st tret nl = Ret (inr st1) -> step prob rfuel st1 = Ret (st2, Err e) ->
     step_failed prob st2 tret e = Ret (st', t, r) -> Post st' t r) ->
  (forall st nl tret st1 st2 u st' t r, I st nl tret ->
     pre_step prob ewt_set st tret nl = Ret (inr st1) -> step prob rfuel st1 = Ret (st2, Ok u) ->
     post_step prob rfuel st2 tout tret itask = Ret (st', t, r) ->
     (r = Ok ContinueSteps -> I st' (nl + 1) t) /\ (r <> Ok ContinueSteps -> Post st' t r)) ->
  forall fuel st tret nl st' t r, I st nl tret ->
    solve_loop prob ewt_set fuel rfuel st tout tret itask nl = Ret (st', t, r) -> Post st' t r.
Proof.
  intros H1' H2' H3'. induction fuel as [|fuel IH]; intros st tret nl st' t r HI E; [discriminate|].
  cbn [solve_loop] in E. apply bind_ret_inv in E. destruct E as (x & Ex & E). cbv beta in E.
  destruct x as [((s & t1) & r1)|s].
  - injection E as <- <- <-. eapply H1'; eassumption.
  - apply bind_ret_inv in E. destruct E as ((s2 & r2) & E2 & E). cbv beta iota in E.
    destruct r2 as [u|e].
    + apply bind_ret_inv in E. destruct E as (((s3 & t3) & r3) & E3 & E). cbv beta iota in E.
      destruct (H3' _ _ _ _ _ _ _ _ _ HI Ex E2 E3) as (K1 & K2).
      destruct r3 as [[]|e].
      1: exact (IH _ _ _ _ _ _ (K1 eq_refl) E).
      all: injection E as <- <- <-; apply K2; discriminate.
    + eapply H2'; eassumption.
Qed.

Lemma shell_nst (a b : state) : shell prob a b -> nst b = nst a.
Proof. intros S. pose proof (core_now _ _ (sh_core _ _ _ S)) as E. unfold perf_now in E. congruence. Qed.
Lemma lims_nst (a b : state) : lims a b -> nst b = nst a.
Proof.
  intros [(_ & ->)|(ts & _ & _ & ->)]; [reflexivity|]. unfold limit_to_tstop. destruct (_ <? _)%sc; reflexivity.
Qed.
Lemma shell_fresh (a b : state) : shell prob a b -> fresh a -> fresh b.
Proof.
  intros S [F|(s & tout & s' & F1 & F2 & F3)].
  - left. rewrite (shell_nst _ _ S). exact F.
  - right. exists s, tout, s'. split; [exact F1|]. split; [exact F2|]. exact (shell_trans _ _ _ _ F3 S).
Qed.
Lemma step_ok_nst fuel (st st' : state) u : step prob fuel st = Ret (st', Ok u) -> nst st' <> 0.
Proof.
  unfold step. intros E. cbv zeta in E. apply bind_ret_inv in E. destruct E as (s0 & _ & E). cbv beta in E.
  apply bind_ret_inv in E. destruct E as ((s & r) & _ & E). cbv beta iota in E.
  destruct r as [((ck & ek) & ek1)|e]; [|discriminate].
  apply bind_ret_inv in E. destruct E as (s2 & E2 & E). cbv beta in E.
  apply complete_step_frame in E2. destruct E2 as (_ & _ & _ & _ & _ & _ & _ & _ & E2 & _).
  apply ret_inj in E. assert (Hs : nst st' = nst s2) by (apply pair_equal_spec in E; destruct E as (<- & _); reflexivity).
  rewrite Hs. injection E2 as -> _ _ _. lia.
Qed.

Lemma solve_loop_pieces fuel rfuel (st st' : state) tout tret itask nl t r :
  limited st -> fresh st -> solve_loop prob ewt_set fuel rfuel st tout tret itask nl = Ret (st', t, r) -> pieces st st'.
Proof.
  intros L F E.
  refine (solve_loop_ind (fun s _ _ => pieces st s /\ limited s /\ fresh s) (fun s _ _ => pieces st s)
            rfuel tout itask _ _ _ fuel st tret nl st' t r _ E).
  - intros s nl' tret' s' t' r' (P & Ls & Fs) Ep. apply pre_step_shell in Ep. destruct Ep as (S1 & _).
    exact (pieces_shell _ _ _ P S1).
  - intros s nl' tret' s1 s2 e s' t' r' (P & Ls & Fs) Ep Es Ef.
    apply pre_step_shell in Ep. destruct Ep as (S1 & _). apply step_failed_shell in Ef. destruct Ef as (S2 & _).
    eapply pieces_shell; [|exact S2]. eapply pieces_snoc; [exact (pieces_shell _ _ _ P S1)|].
    eapply p_step; [| |exact Es]; [exact (shell_limited _ _ S1 Ls)|exact (shell_fresh _ _ S1 Fs)].
  - intros s nl' tret' s1 s2 u s' t' r' (P & Ls & Fs) Ep Es Ef.
    pose proof (step_ok_nst _ _ _ _ Es) as Hz.
    apply pre_step_shell in Ep. destruct Ep as (S1 & _). apply post_step_shell in Ef.
    destruct Ef as (s3 & S3 & Hc).
    assert (P3 : pieces st s3).
    { eapply pieces_shell; [|exact S3]. eapply pieces_snoc; [exact (pieces_shell _ _ _ P S1)|].
      eapply p_step; [| |exact Es]; [exact (shell_limited _ _ S1 Ls)|exact (shell_fresh _ _ S1 Fs)]. }
    assert (Hz3 : nst s3 <> 0) by (rewrite (shell_nst _ _ S3); exact Hz).
    destruct Hc as [(-> & Hlim & _)|(Hne & Hc)]; (split; [intros Hr|intros Hr]); try congruence.
    + split; [|split; [exact (lims_limited _ _ Hlim)|left; rewrite (lims_nst _ _ Hlim); exact Hz3]].
      eapply pieces_snoc; [exact P3|apply p_lims; [exact Hz3|exact Hlim]].
    + destruct Hc as [S4|(s4 & L4 & S4)].
      * exact (pieces_shell _ _ _ P3 S4).
      * eapply pieces_shell; [|exact S4]. eapply pieces_snoc; [exact P3|apply p_lims; [exact Hz3|exact L4]].
  - split; [constructor|auto].
Qed.

Lemma task_shell (st : state) tout itask :
  shell prob st (set_taskc itask (match itask with Normal => set_toutc tout st | OneStep => st end)).
Proof.
  destruct itask; apply shell_quiet; auto.
Qed.

Lemma fkeep_fields (a b : state) : fkeep a = fkeep b ->
  cfg a = cfg b /\ psi a = psi b /\ alpha a = alpha b /\ beta a = beta b /\ sigma a = sigma b /\
  gamma a = gamma b /\ nst a = nst b /\ ncfn a = ncfn b /\ netf a = netf b /\ tn (nlp a) = tn (nlp b) /\
  nre (nlp a) = nre (nlp b) /\ nsetups (nlp a) = nsetups (nlp b) /\ nje (lp (nlp a)) = nje (lp (nlp b)) /\
  tstop a = tstop b /\ cvals a = cvals b /\ dvals a = dvals b /\ perf0 a = perf0 b /\
  ncfl (lp (nlp a)) = ncfl (lp (nlp b)) /\ tretlast a = tretlast b /\ hused a = hused b /\ ns a = ns b /\
  phase a = phase b.
Proof.
  intros E.
  assert (Ec : cfg a = cfg b) by (exact (f_equal (fun x => fst (fst (fst (fst (fst (fst (fst x))))))) E)).
  assert (Ep : perf0 a = perf0 b) by (exact (f_equal (fun x => snd (fst (fst (snd x)))) E)).
  unfold fkeep in E. cbv zeta in E. injection E. intros. repeat split; assumption.
Qed.

(** The state in which a call of [solve] starts to step, or its answer. *)
Definition solve_start (rfuel : nat) (st : state) (tout tret : T) (itask : task)
  : outcome (answer + state * T) :=
  let* r :=
    (if nst st =? 0 then
       let* r := first_call prob ewt_set st tout in
       match r with
       | inl (st, msg) => Ret (inl (st, tret, Err (EIda (IllegalIn msg))))
       | inr st => Ret (inr st)
       end
     else Ret (inr st)) in
  match r with
  | inl a => Ret (inl a)
  | inr st =>
      let* l := ls_perf (lp (nlp st)) (nst st) (nni st) (ncfn st) false in
      let st := on_lp (fun _ => l) st in
      if 0 <? nst st then later_call prob rfuel st tout tret itask
      else Ret (inr (st, tret))
  end.

Lemma solve_unfold fuel rfuel (st : state) tout tret itask :
  solve prob ewt_set fuel rfuel st tout tret itask =
  let* r := solve_start rfuel
       (set_taskc itask (match itask with Normal => set_toutc tout st | OneStep => st end)) tout tret itask in
  match r with
  | inl a => Ret a
  | inr (st, tret) => solve_loop prob ewt_set fuel rfuel st tout tret itask 0
  end.
Proof.
  unfold solve, solve_start. cbv zeta. set (s := set_taskc _ _). clearbody s.
  destruct (nst s =? 0).
  - destruct (first_call prob ewt_set s tout) as [[(s1 & m)|s1]| |]; cbn [bind]; reflexivity.
  - reflexivity.
Qed.

Lemma solve_start_cases rfuel (st : state) tout tret itask x :
  solve_start rfuel st tout tret itask = Ret x ->
  (nst st = 0 /\ exists s m, first_call prob ewt_set st tout = Ret (inl (s, m)) /\
     x = inl (s, tret, Err (EIda (IllegalIn m)))) \/
  (nst st = 0 /\ exists s l, first_call prob ewt_set st tout = Ret (inr s) /\ nst s = 0 /\
     ls_perf (lp (nlp s)) (nst s) (nni s) (ncfn s) false = Ret l /\
     shell prob s (on_lp (fun _ => l) s) /\ x = inr (on_lp (fun _ => l) s, tret)) \/
  (nst st <> 0 /\ exists l,
     ls_perf (lp (nlp st)) (nst st) (nni st) (ncfn st) false = Ret l /\
     shell prob st (on_lp (fun _ => l) st) /\
     later_call prob rfuel (on_lp (fun _ => l) st) tout tret itask = Ret x).
Proof.
  unfold solve_start. intros E. apply bind_ret_inv in E. destruct E as (r & Er & E). cbv beta in E.
  destruct (Nat.eqb_spec (nst st) 0) as [Hz|Hz].
  - apply bind_ret_inv in Er. destruct Er as (r1 & E1 & Er). cbv beta in Er.
    destruct r1 as [(s & m)|s].
    + injection Er as <-. left. split; [exact Hz|]. exists s, m. split; [exact E1|].
      injection E as <-. reflexivity.
    + injection Er as <-. right. left. split; [exact Hz|].
      pose proof (first_call_frame _ _ _ E1) as (Hk & _). apply fkeep_fields in Hk.
      destruct Hk as (_ & _ & _ & _ & _ & _ & Hn & _). rewrite Hz in Hn.
      apply bind_ret_inv in E. destruct E as (l & El & E). cbv beta zeta in E.
      pose proof (ls_perf_false_shell prob s l El) as S1.
      change (nst (on_lp (fun _ => l) s)) with (nst s) in E. rewrite Hn in E. cbn [Nat.ltb Nat.leb] in E.
      exists s, l. injection E as <-. repeat split; try assumption; apply S1.
  - injection Er as <-. right. right. split; [exact Hz|].
    apply bind_ret_inv in E. destruct E as (l & El & E). cbv beta zeta in E.
    exists l. split; [exact El|]. split; [exact (ls_perf_false_shell prob st l El)|].
    change (nst (on_lp (fun _ => l) st)) with (nst st) in E.
    destruct (Nat.ltb_spec 0 (nst st)); [exact E|lia].
Qed.

Lemma solve_start_pieces rfuel (st : state) tout tret itask x :
  solve_start rfuel st tout tret itask = Ret x ->
  match x with
  | inl (st', _, r) => pieces st st' /\ r <> Ok ContinueSteps
  | inr (st', tret') => pieces st st' /\ limited st' /\ fresh st' /\ tret' = tret
  end.
Proof.
  intros E. destruct (solve_start_cases _ _ _ _ _ _ E) as
    [(Hz & s & m & E1 & ->)|[(Hz & s & l & E1 & Hn & _ & S1 & ->)|(Hz & l & _ & S1 & E1)]].
  - split; [|discriminate]. apply piece1. eapply p_first_no; eassumption.
  - assert (P : pieces st s) by (apply piece1; eapply p_first_ok; eassumption).
    pose proof (first_call_frame _ _ _ E1) as (_ & _ & _ & _ & _ & _ & L & _).
    split; [exact (pieces_shell _ _ _ P S1)|]. split; [exact (shell_limited _ _ S1 L)|].
    split; [|reflexivity]. right. exists st, tout, s. auto.
  - apply later_call_shell in E1. destruct x as [((s & t) & r)|(s & t)].
    + destruct E1 as (Hne & S2). split; [|exact Hne].
      eapply pieces_shell; [apply piece1; apply p_shell; exact S1|exact S2].
    + destruct E1 as (-> & s1 & S2 & _ & L & _).
      assert (Hz1 : nst s1 <> 0) by (rewrite (shell_nst _ _ S2), (shell_nst _ _ S1); exact Hz).
      split; [|split; [exact (lims_limited _ _ L)|]];
        [|split; [left; rewrite (lims_nst _ _ L); exact Hz1|reflexivity]].
      eapply pieces_snoc; [|apply p_lims; [exact Hz1|exact L]].
      eapply pieces_shell; [apply piece1; apply p_shell; exact S1|exact S2].
Qed.

Lemma solve_pieces fuel rfuel (st st' : state) tout tret itask t r :
  solve prob ewt_set fuel rfuel st tout tret itask = Ret (st', t, r) -> pieces st st'.
Proof.
  rewrite solve_unfold. intros E. apply bind_ret_inv in E. destruct E as (x & Ex & E). cbv beta in E.
  apply solve_start_pieces in Ex.
  pose proof (p_shell _ _ (task_shell st tout itask)) as P0.
  destruct x as [((s & t1) & r1)|(s & t1)].
  - destruct Ex as (P & _). injection E as <- <- <-. exact (pieces_trans _ _ _ (piece1 _ _ P0) P).
  - destruct Ex as (P & L & F & ->). apply solve_loop_pieces in E; [|exact L|exact F].
    exact (pieces_trans _ _ _ (piece1 _ _ P0) (pieces_trans _ _ _ P E)).
Qed.

Lemma api_call_pieces fuel rfuel (st st' : state) c rep :
  api_call prob ewt_set fuel rfuel st c = Ret (st', rep) -> pieces st st'.
Proof.
  destruct c as [tout tret itask|t|t k]; cbn [api_call]; intros E;
    apply bind_ret_inv in E; destruct E as (x & Ex & E).
  - destruct x as ((s & t) & r). injection E as <- <-. exact (solve_pieces _ _ _ _ _ _ _ _ _ Ex).
  - destruct x as (s & r). injection E as <- <-. apply piece1, p_shell.
    exact (get_solution_shell _ _ _ _ _ Ex).
  - destruct x as (d & r). injection E as <- <-. constructor.
Qed.

(** ** Configured objects and their reachable states

    The public API has no setters (src/ida_io.rs only reads), so a user's
    object has the defaults of [Ida::new].  To cover the configuration fields
    the code reads, an object may start with any of them changed. *)
Record config : Type := mkconfig {
  g_maxord : nat; g_mxstep : nat; g_maxnef : nat; g_maxncf : nat;
  g_hin : T; g_hmax_inv : T; g_epcon : T; g_t0 : T; g_tstop : option T;
  g_suppressalg : bool; g_idv : list bool; g_rootdir : list nat }.

Definition default_config : config :=
  mkconfig 5 500 10 10 szero szero sepcon szero None false (repeat false n) (repeat 0 nr).

Definition configure (c : config) (st : state) : state :=
  set_maxord (g_maxord c) (set_mxstep (g_mxstep c) (set_maxnef (g_maxnef c) (set_maxncf (g_maxncf c)
  (set_hin (g_hin c) (set_hmax_inv (g_hmax_inv c) (set_epcon (g_epcon c)
  (on_nlp (set_tn (g_t0 c)) (set_tstop (g_tstop c) (set_suppressalg (g_suppressalg c)
  (set_idv (g_idv c) (set_rootdir (g_rootdir c) st))))))))))).

Lemma configure_default yy0 yp0 st :
  ida_new prob yy0 yp0 = Ret st -> configure default_config st = st.
Proof. unfold ida_new. destruct (_ && _); [|discriminate]. intros E. injection E as <-. reflexivity. Qed.

Inductive reach (c : config) (yy0 yp0 : list T) : state -> Prop :=
| reach_new st : ida_new prob yy0 yp0 = Ret st -> reach c yy0 yp0 (configure c st)
| reach_call fuel rfuel st k st' rep :
    reach c yy0 yp0 st -> api_call prob ewt_set fuel rfuel st k = Ret (st', rep) ->
    reach c yy0 yp0 st'.

Lemma reach_pieces c yy0 yp0 (st : state) :
  reach c yy0 yp0 st -> exists st0, ida_new prob yy0 yp0 = Ret st0 /\ pieces (configure c st0) st.
Proof.
  induction 1 as [st E|fuel rfuel st k st' rep Hr (st0 & E0 & P) E].
  - exists st. split; [exact E|constructor].
  - exists st0. split; [exact E0|]. exact (pieces_trans _ _ _ P (api_call_pieces _ _ _ _ _ _ E)).
Qed.

Lemma reach_inv c yy0 yp0 (I : state -> Prop) :
  (forall st, ida_new prob yy0 yp0 = Ret st -> I (configure c st)) ->
  (forall a b, I a -> piece a b -> I b) ->
  forall st, reach c yy0 yp0 st -> I st.
Proof.
  intros H0' HI st Hr. destruct (reach_pieces _ _ _ _ Hr) as (st0 & E & P).
  exact (pieces_inv I HI _ _ P (H0' _ E)).
Qed.

End Reach.
