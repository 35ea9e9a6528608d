(** * IdaRow0: phi[0] is the solution of the last accepted step, over the reals *)
Require Import List Arith Bool Lia Reals Lra.
Import ListNotations.
Require Import Verif.Base Verif.Scalar Verif.ScalarR Verif.Norms Verif.Newton Verif.NewtonSpec Verif.IdaState
  Verif.IdaNls Verif.IdaCore Verif.IdaRoots Verif.IdaSolve Verif.BaseFacts Verif.NewtonFacts
  Verif.IdaFacts Verif.IdaLoops Verif.IdaStep Verif.IdaSpec Verif.IdaShell Verif.IdaReach Verif.IdaInv
  Verif.IdaCount Verif.IdaLife Verif.IdaTrace Verif.IdaAccept Verif.IdaStepR Verif.VecR.
Open Scope R_scope.

Section Row0.
Context {LSt NSt : Type} `{LSolver R LSt} `{NLSolver R NSt}.
Variable prob : problem R.
Variable ewt_set : list R -> list R.
Hypothesis Hl : @nls_lawful R NSt _.
Variable c : @config R.
Hypothesis Hc : config_ok c.
Variables yy0 yp0 : list R.
Notation n := (model_size prob).
Notation state := (ida R LSt NSt).
Notation tr st := (trace (lp (nlp st))).

Definition row0 (st : state) : Prop := forall a rest, steps (tr st) = a :: rest -> row (phi st) 0 = a_y a.
Definition RJ (o : option (R * nat)) (st : state) : Prop := J prob c o st /\ row0 st.

Lemma row0_none (st : state) o : J prob c o st -> nst st = 0%nat -> row0 st.
Proof. intros (L & _) Hz a rest E. pose proof (tl_n _ _ _ _ L) as Ln. rewrite E, Hz in Ln. discriminate. Qed.

Lemma row0_ext (a b : state) : steps (tr b) = steps (tr a) -> row (phi b) 0 = row (phi a) 0 -> row0 a -> row0 b.
Proof. intros E1 E2 Ha x rest E. rewrite E2. apply (Ha x rest). congruence. Qed.

Lemma RJ_new : i_new prob RJ c yy0 yp0.
Proof.
  intros st E. pose proof (J_new prob c yy0 yp0 st E) as Js. split; [exact Js|]. apply (row0_none _ _ Js).
  pose proof (new_fields prob _ _ _ E) as F. destruct F as (_ & _ & _ & F4 & _). exact F4.
Qed.

Lemma RJ_shell : i_shell prob RJ.
Proof.
  intros a b Ho (Ja & La) S. split; [exact (J_shell prob c a b Ho Ja S)|].
  destruct (sh_trace _ _ _ S) as (evs & T1 & T2 & _).
  pose proof (core_fields _ _ (sh_core _ _ _ S)) as D. destruct D as (_ & D1 & _).
  apply (row0_ext a); [|rewrite D1; reflexivity|exact La].
  rewrite T1. apply calm_app. eapply Forall_impl; [|exact T2]. intros e. destruct e; cbn; congruence.
Qed.

Lemma RJ_lims : i_lims RJ.
Proof.
  intros a b Ho (Ja & La) Hz S. split; [exact (J_lims prob c a b Ho Ja Hz S)|].
  destruct S as [(_ & ->)|(ts & _ & _ & ->)]; [exact La|]. unfold limit_to_tstop. destruct (_ <? _)%sc; exact La.
Qed.

Lemma RJ_first : i_first prob ewt_set RJ.
Proof.
  intros a tout x Ho (Ja & La) Hz E. pose proof (J_first prob ewt_set c a tout x Ho Ja Hz E) as J1.
  split; [exact J1|]. apply (row0_none _ _ J1). apply first_call_frame in E. cbv zeta in E. destruct E as (F1 & _).
  apply fkeep_fields in F1. assert (X := F1). intuition congruence.
Qed.

Lemma RJ_begin : i_begin prob ewt_set RJ.
Proof.
  intros st Ho (Jst & Lst) Hlim Hfr. pose proof (J_begin prob ewt_set c st Ho Jst Hlim Hfr) as J1.
  split; [exact J1|].
  destruct (init_fields st) as (F1 & F2 & F3 & F4 & F5 & F6 & F7 & F8 & F9 & F10 & F11 & F12 & F13 & F14 &
    F15 & F16 & F17 & F18 & F19 & _).
  apply (row0_ext st); [rewrite F19; reflexivity|rewrite F6; reflexivity|exact Lst].
Qed.

(** The first row takes part in no scaling. *)
Lemma restored_row0 (st st1 : state) ck r ps ph : instep st -> tried prob st st1 ck r -> restored prob st1 ps ph ->
  row ph 0 = row (phi st) 0.
Proof.
  intros Hi Htr (_ & _ & _ & _ & _ & R4). pose proof (tr_coeffs _ _ _ _ _ Htr) as (Cn & _ & _ & _ & K5).
  pose proof (is_kk _ Hi). pose proof (is_max _ Hi).
  assert (X : (0 < ns_next st)%nat) by (unfold ns_next; lia).
  rewrite R4 by lia. apply K5; lia.
Qed.

Lemma RJ_retry : i_retry prob RJ.
Proof.
  intros st t0 nef st1 ck ek ek1 st' Hi (Jst & Lst) Et Htr Hat Hn Hrt.
  pose proof (J_retry prob ewt_set c st t0 nef st1 ck ek ek1 st' Hi Jst Et Htr Hat Hn Hrt) as J1.
  split; [exact J1|].
  destruct (rl_try prob ewt_set c st st1 t0 nef ck _ Hi Jst Htr Hat) as (evs & T1 & T2 & _).
  pose proof (rt_nlp _ _ _ _ _ Hrt) as U1. pose proof (rt_keep _ _ _ _ _ Hrt) as U3.
  pose proof (tr_cnt _ _ _ _ _ Htr) as U4.
  destruct (rt_hist _ _ _ _ _ Hrt) as (ps & ph & G1 & G2 & _).
  assert (En : nst st' = nst st /\ nst st1 = nst st) by (pinj; split; congruence). destruct En as (En & En1).
  destruct (Nat.eq_dec (nst st) 0) as [Hz|Hz]; [apply (row0_none _ _ J1); congruence|].
  destruct G2 as (_ & G2); [congruence|].
  apply (row0_ext st); [|rewrite G2; exact (restored_row0 _ _ _ _ _ _ Hi Htr G1)|exact Lst].
  assert (Et1 : tr st' = tr st1) by (rewrite U1; reflexivity).
  rewrite Et1, T1. cbn. destruct (calm_app evs (CTry (tn (nlp st)) (hh st) (kk st) :: tr st) T2) as (_ & _ & S3 & _). exact S3.
Qed.

Lemma RJ_commit : i_commit prob RJ.
Proof.
  intros st t0 nef st1 ck ek ek1 st2 Hi (Jst & Lst) Et Htr Hat Hcp.
  pose proof (J_commit prob ewt_set c st t0 nef st1 ck ek ek1 st2 Hi Jst Et Htr Hat Hcp) as J1.
  split; [exact J1|].
  destruct (rl_try prob ewt_set c st st1 t0 nef ck _ Hi Jst Htr Hat) as (evs & T1 & T2 & _).
  pose proof (cp_nlp _ _ _ Hcp) as U2. pose proof (tr_res _ _ _ _ _ Htr) as (R1 & _).
  pose proof (tr_ord _ _ _ _ _ Htr) as U7. pinj.
  assert (E0 : row (phi (st_commit prob ck st2)) 0 = yy (nlp st2)).
  { change (phi (st_commit prob ck st2)) with (phi st2). rewrite (cp_row _ _ _ Hcp 0) by lia.
    rewrite Nat.sub_0_r, U2, R1, (tr_yyp _ _ _ _ _ Htr).
    replace (kk st) with (kk st1) by congruence. apply tailsum_rowsum. }
  intros a rest E. rewrite E0. revert E.
  assert (Ht : tr (st_commit prob ck st2) = CStep (tn (nlp st2)) (yy (nlp st2)) :: evs ++ CTry (tn (nlp st)) (hh st) (kk st) :: tr st).
  { unfold st_commit. cbn [nlp lp trace set_ee on_lp on_nlp set_nlp set_lp push_ev set_trace].
    rewrite U2, T1. reflexivity. }
  rewrite Ht. cbn. destruct (calm_app evs (CTry (tn (nlp st)) (hh st) (kk st) :: tr st) T2) as (S1 & _ & S3 & _).
  rewrite S1, S3. cbn. intros E. injection E as <- _. reflexivity.
Qed.

Lemma RJ_giveup : i_giveup prob RJ.
Proof.
  intros st t0 nef st1 ck ek ek1 st' e Hi (Jst & Lst) Et Htr Hat Hg He.
  pose proof (J_giveup prob ewt_set c st t0 nef st1 ck ek ek1 st' e Hi Jst Et Htr Hat Hg He) as J1.
  split; [exact J1|].
  destruct (rl_try prob ewt_set c st st1 t0 nef ck _ Hi Jst Htr Hat) as (evs & T1 & T2 & _).
  pose proof (gu_nlp _ _ _ _ Hg) as U2.
  apply (row0_ext st); [|exact (restored_row0 _ _ _ _ _ _ Hi Htr (gu_hist _ _ _ _ Hg))|exact Lst].
  assert (Et1 : tr st' = tr st1) by (rewrite U2; reflexivity).
  rewrite Et1, T1. destruct (calm_app evs (CTry (tn (nlp st)) (hh st) (kk st) :: tr st) T2) as (_ & _ & S3 & _).
  destruct e as [[]| |]; exact S3.
Qed.

Lemma RJ_in : i_in prob ewt_set RJ.
Proof. split; [exact RJ_begin|]. split; [exact RJ_retry|]. split; [exact RJ_commit|exact RJ_giveup]. Qed.

Lemma reach_row0 (st : state) : reach prob ewt_set c yy0 yp0 st -> row0 st.
Proof.
  intros Hr. apply (reach_life prob ewt_set Hl RJ c yy0 yp0 st Hc);
    [apply RJ_new|apply RJ_shell|apply RJ_lims|apply RJ_first|exact RJ_in|exact Hr].
Qed.

Lemma pieces_RJ (a b : state) : pieces prob ewt_set a b -> ordok a -> RJ None a -> ordok b /\ RJ None b.
Proof. intros Hp Ho Ha. exact (pieces_life prob ewt_set Hl RJ a b RJ_shell RJ_lims RJ_first RJ_in Hp Ho Ha). Qed.
End Row0.
