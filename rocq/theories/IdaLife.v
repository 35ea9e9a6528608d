(** * IdaLife: induction over the life of an integrator object, down to single
      step attempts *)
Require Import List Arith Bool Lia.
Import ListNotations.
Require Import Verif.Base Verif.Scalar Verif.Norms Verif.Newton Verif.NewtonSpec Verif.IdaState
  Verif.IdaNls Verif.IdaCore Verif.IdaRoots Verif.IdaSolve Verif.BaseFacts Verif.NewtonFacts
  Verif.IdaFacts Verif.IdaLoops Verif.IdaStep Verif.IdaSpec Verif.IdaShell Verif.IdaReach Verif.IdaInv Verif.IdaCount.

Section Life.
Context {T LSt NSt : Type} `{Scalar T} `{LSolver T LSt} `{NLSolver T NSt}.
Variable prob : problem T.
Variable ewt_set : list T -> list T.
Hypothesis Hl : @nls_lawful T NSt _.
Notation n := (model_size prob).
Notation nr := (num_roots prob).
Notation state := (ida T LSt NSt).

(** State at the start of an attempt. *)
Record instep (st : state) : Prop := mkinstep {
  is_arr : arrays st;
  is_kk : 1 <= kk st <= maxord st;
  is_max : maxord st <= 5;
  is_kused : kused st <= maxord st;
  is_zero : nst st = 0 -> kk st = 1 /\ kused st = 0;
  is_pos : nst st <> 0 -> 1 <= kused st /\ kk st <= kused st + 1 }.

Lemma instep_init (st : state) : ordok st -> instep (st_init st).
Proof.
  intros Ho. pose proof (init_kk st Ho) as Hk.
  destruct (init_fields st) as (F1 & _ & _ & _ & _ & _ & _ & F8 & _ & _ & F11 & _).
  destruct Ho as (Ha & Hm & H3 & H4 & H5).
  constructor; rewrite ?F11, ?F8; try lia.
  - apply arrays_init. exact Ha.
  - unfold st_init. cbv zeta. destruct (nst _ =? 0); cbn; lia.
  - intros Hz. unfold st_init. cbv zeta.
    change (nst (on_lp (push_ev (begin_ev st)) st)) with (nst st). rewrite Hz. cbn. auto.
  - intros Hz. unfold st_init. cbv zeta.
    change (nst (on_lp (push_ev (begin_ev st)) st)) with (nst st).
    destruct (Nat.eqb_spec (nst st) 0); [lia|]. cbn. specialize (H5 Hz). lia.
Qed.

Lemma instep_retry (st st1 st' : state) ck t nef :
  instep st -> tried prob st st1 ck (Err (EIda TestFail)) -> retried prob st1 st' t nef -> instep st'.
Proof.
  intros [I1 I2 I3 I4 I5 I6] Htr Hrt.
  pose proof (tr_res _ _ _ _ _ Htr) as (Hkn & _). pose proof (rt_kk _ _ _ _ _ Hrt) as Hk.
  pose proof (rt_keep _ _ _ _ _ Hrt) as K1. pose proof (tr_ord _ _ _ _ _ Htr) as K2.
  pose proof (tr_cnt _ _ _ _ _ Htr) as K4. pose proof (maxord_tried prob _ _ _ _ Htr) as M1.
  pose proof (cfg_fields _ _ (rt_cfg _ _ _ _ _ Hrt)) as M2.
  destruct M2 as (_ & _ & _ & _ & _ & _ & _ & M2 & _). pinj.
  assert (Hk' : kk st' <= kk st /\ 1 <= kk st'). { rewrite Hk. destruct (nef <=? 1); lia. }
  constructor; try lia. apply Hrt.
Qed.

(** Induction over lives.  [I None st]: between steps; [I (Some (t0, nef)) st]:
    inside a step that began at time [t0], before its attempt number [nef + 1]. *)
Section Ind.
Variable I : option (T * nat) -> state -> Prop.

Definition i_new c yy0 yp0 : Prop :=
  forall st, ida_new prob yy0 yp0 = Ret st -> I None (configure c st).
Definition i_shell : Prop := forall a b : state, ordok a -> I None a -> shell prob a b -> I None b.
Definition i_lims : Prop := forall a b : state, ordok a -> I None a -> nst a <> 0 -> lims a b -> I None b.
Definition i_first : Prop := forall (a : state) tout x, ordok a -> I None a -> nst a = 0 ->
  first_call prob ewt_set a tout = Ret x -> I None (match x with inl (s, _) => s | inr s => s end).
Definition i_begin : Prop := forall st : state,
  ordok st -> I None st -> limited st -> fresh prob ewt_set st -> I (Some (tn (nlp st), 0)) (st_init st).
Definition i_retry : Prop := forall (st : state) t0 nef st1 ck ek ek1 st',
  instep st -> I (Some (t0, nef)) st ->
  try_step prob st = Ret (st1, ck, ek, ek1, Err (EIda TestFail)) ->
  tried prob st st1 ck (Err (EIda TestFail)) ->
  attempted prob st st1 (Err (EIda TestFail)) ->
  nef + 1 < maxnef st \/ nef <= 1 ->
  retried prob st1 st' t0 nef -> I (Some (t0, nef + 1)) st'.
Definition i_commit : Prop := forall (st : state) t0 nef st1 ck ek ek1 st2,
  instep st -> I (Some (t0, nef)) st ->
  try_step prob st = Ret (st1, ck, ek, ek1, Ok tt) ->
  tried prob st st1 ck (Ok tt) -> attempted prob st st1 (Ok tt) ->
  completed prob st1 st2 -> I None (st_commit prob ck st2).
Definition i_giveup : Prop := forall (st : state) t0 nef st1 ck ek ek1 st' e,
  instep st -> I (Some (t0, nef)) st ->
  try_step prob st = Ret (st1, ck, ek, ek1, Err e) ->
  tried prob st st1 ck (Err e) -> attempted prob st st1 (Err e) ->
  gave_up prob st1 st' t0 ->
  (e = EIda TestFail /\ maxnef st <= nef + 1 /\ 2 <= nef /\
     netf st' = netf st1 + 1 /\ ncfn st' = ncfn st1 \/
   (exists m, e = ENls m) /\ netf st' = netf st1 /\ ncfn st' = ncfn st1 + 1) ->
  I None st'.

Definition i_in : Prop := i_begin /\ i_retry /\ i_commit /\ i_giveup.

Lemma tries_life t0 (st0 sta : state) nef : i_retry ->
  instep st0 -> I (Some (t0, 0)) st0 -> tries prob t0 st0 sta nef ->
  instep sta /\ I (Some (t0, nef)) sta.
Proof.
  intros HR Hi HI0. induction 1 as [|st nef st1 ck ek ek1 st' Ht IH Et Htr Hn Hrt]; [auto|].
  destruct IH as (I1 & I2). split; [eapply instep_retry; eassumption|].
  eapply HR; try eassumption.
  eapply (try_step_calls prob Hl); [apply I1| |exact Et].
  pose proof (is_kk _ I1). pose proof (is_max _ I1). lia.
Qed.

Lemma step_life fuel (st st' : state) r : i_in ->
  ordok st -> I None st -> limited st -> fresh prob ewt_set st -> step prob fuel st = Ret (st', r) -> I None st'.
Proof.
  intros (HB & HR & HC & HG) Ho HI0 Hlim Hfr E. pose proof (step_spec prob Hl _ _ _ _ Ho E) as Hs.
  destruct Hs as (sta & nef & st1 & ck & ek & ek1 & r1 & Ht & Et & Htr & Hc).
  destruct (tries_life _ _ _ _ HR (instep_init _ Ho) (HB _ Ho HI0 Hlim Hfr) Ht) as (I1 & I2).
  assert (Hat : attempted prob sta st1 r1).
  { eapply (try_step_calls prob Hl); [apply I1| |exact Et].
    pose proof (is_kk _ I1). pose proof (is_max _ I1). lia. }
  destruct Hc as [(-> & -> & st2 & Hcp & ->)|(e & -> & Hg & Hc)].
  - eapply HC; eassumption.
  - eapply HG; try eassumption.
    destruct Hc as [(-> & Q1 & Q2 & -> & Q3 & Q4)|(Q1 & -> & Q3 & Q4)]; [left; auto|right; auto].
Qed.

Lemma piece_life (a b : state) : i_shell -> i_lims -> i_first -> i_in ->
  ordok a -> I None a -> piece prob ewt_set a b -> I None b.
Proof.
  intros HS HL HF HI Ho Ha P. destruct P as [s s' S|s s' Hz L|s s' tout m Hn E|s s' tout Hn E|fuel s s' r L F E].
  - eapply HS; eassumption.
  - eapply HL; eassumption.
  - apply (HF _ _ _ Ho Ha Hn E).
  - apply (HF _ _ _ Ho Ha Hn E).
  - eapply step_life; eassumption.
Qed.

Lemma pieces_life (a b : state) : i_shell -> i_lims -> i_first -> i_in ->
  pieces prob ewt_set a b -> ordok a -> I None a -> ordok b /\ I None b.
Proof.
  intros HS HL HF HI P. revert a b P.
  assert (HX : forall a b, ordok a /\ I None a -> piece prob ewt_set a b -> ordok b /\ I None b).
  { intros a b (Ho & Ha) P. split; [eapply (piece_ord prob ewt_set Hl); eassumption|].
    eapply piece_life; eassumption. }
  intros a b P Ho Ha. exact (pieces_inv prob ewt_set _ HX a b P (conj Ho Ha)).
Qed.

Lemma reach_life c yy0 yp0 (st : state) :
  config_ok c -> i_new c yy0 yp0 -> i_shell -> i_lims -> i_first -> i_in ->
  reach prob ewt_set c yy0 yp0 st -> I None st.
Proof.
  intros Hc HN HS HL HF HI Hr. apply reach_pieces in Hr. destruct Hr as (st0 & E & P).
  apply (pieces_life _ _ HS HL HF HI P); [eapply new_ord; eassumption|apply HN; exact E].
Qed.
End Ind.
End Life.
