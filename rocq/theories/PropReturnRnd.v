(** * PropReturnRnd: C87, calls of [solve] return in arithmetic with rounding
    Inside a call the search after a step starts at the time before the step and
    ends at the time after it or at the output time between them, and the next step
    size is at least half the step made: the tolerance of the search is far above
    the spacing of the numbers.  Only what earlier calls left behind, and an output
    time behind the current time, can break this. *)
Require Import List Arith Bool Lia Reals Lra Psatz.
Import ListNotations.
Require Import Verif.Base Verif.Scalar Verif.ScalarR Verif.RoundR Verif.Dense Verif.Norms Verif.Newton Verif.NewtonSpec
  Verif.IdaState Verif.IdaNls Verif.IdaCore Verif.IdaRoots Verif.IdaSolve Verif.IdaIo Verif.BaseFacts Verif.NewtonFacts
  Verif.IdaFacts Verif.IdaLoops Verif.IdaStep Verif.IdaSpec Verif.IdaShell Verif.IdaReach Verif.IdaInv
  Verif.IdaCount Verif.IdaLife Verif.IdaTrace Verif.IdaStepR Verif.IdaSafe Verif.IdaCall Verif.PropSafe
  Verif.IdaStepRnd Verif.PropTimesRnd Verif.RootRnd Verif.RootWalk Verif.PropRootsRnd Verif.PropReturn Verif.ReturnAny.
Open Scope R_scope.

Section Arith.
Variables (u : R) (rnd : R -> R).
Hypothesis Hf : f64_like u rnd.
Let Hg : regular u rnd := f64_like_regular u rnd Hf.
Local Instance SRa : Scalar R := ScalarRnd rnd.

Lemma rnd_low x : Rabs x <= 11 / 10 * Rabs (rnd x).
Proof.
  pose proof Hf as (U & E & _). specialize (E x). pose proof (Rabs_triang_inv x (x - rnd x)) as Q.
  replace (x - (x - rnd x)) with (rnd x) in Q by ring. rewrite Rabs_minus_sym in E. pose proof (Rabs_pos x).
  assert (u * Rabs x <= / 100 * Rabs x) by (apply Rmult_le_compat_r; lra). lra.
Qed.

Lemma rnd_high x : Rabs (rnd x) <= 101 / 100 * Rabs x.
Proof.
  pose proof Hf as (U & E & _). specialize (E x). pose proof (Rabs_triang (rnd x - x) x) as Q.
  replace (rnd x - x + x) with (rnd x) in Q by ring. pose proof (Rabs_pos x).
  assert (u * Rabs x <= / 100 * Rabs x) by (apply Rmult_le_compat_r; lra). lra.
Qed.

Lemma slack_low : slack u <= 11 / 10.
Proof.
  pose proof Hf as (U & _). unfold slack. assert (A : / (1 - u) <= 101 / 100).
  { rewrite <- (Rinv_inv (101 / 100)) by lra. apply Rinv_le_contravar; lra. }
  assert (0 < / (1 - u)) by (apply Rinv_0_lt_compat; lra). nra.
Qed.

(** The next step is not much shorter than half the step made. *)
Lemma next_h_low hi h h' : h <> 0 -> Rabs h * hi <= slack u -> next_h hi h h' -> Rabs h <= 23 / 10 * Rabs h'.
Proof.
  intros Hh Hi N. pose proof (Rabs_pos_lt _ Hh) as Hp. destruct N as [-> |[-> |(r & _ & ->)]].
  - pose proof (Rabs_pos h). lra.
  - unfold dbl. cbn [sabs smul stwo sltb sone sdiv SRa ScalarRnd]. cbv zeta.
    assert (X : 2 * Rabs h <= 11 / 10 * Rabs (rnd (2 * h))).
    { eapply Rle_trans; [|apply rnd_low]. rewrite Rabs_mult, (Rabs_pos_eq 2) by lra. lra. }
    set (x := rnd (2 * h)) in *. clearbody x.
    destruct (Rltb 1 (rnd (Rabs x * hi))) eqn:Eb.
    + apply Rltb_true in Eb. assert (Px : 0 < Rabs x) by lra.
      assert (Pi : 0 < hi).
      { assert (Z : 0 < Rabs x * hi) by (apply (rnd_pos_inv u rnd Hg); lra). destruct (Rle_or_lt hi 0); nra. }
      pose proof (rnd_high (Rabs x * hi)) as W. set (w := rnd (Rabs x * hi)) in *. clearbody w.
      rewrite (Rabs_pos_eq w) in W by lra. pose proof (rnd_low (x / w)) as Y. set (y := rnd (x / w)) in *. clearbody y.
      rewrite (Rabs_pos_eq (Rabs x * hi)) in W by nra.
      unfold Rdiv in Y. rewrite Rabs_mult, Rabs_inv, (Rabs_pos_eq w) in Y by lra.
      pose proof slack_low as Sl.
      (* |h| hi <= 1.1 and 1 <= 1.01 * hi * 1.1 * |y| *)
      assert (Q : 1 <= 101 / 100 * hi * (11 / 10 * Rabs y)).
      { apply Rle_trans with (101 / 100 * hi * (Rabs x * / w)); [|apply Rmult_le_compat_l; [nra|exact Y]].
        apply Rmult_le_reg_r with w; [lra|]. replace (101 / 100 * hi * (Rabs x * / w) * w) with (101 / 100 * (Rabs x * hi)) by (field; lra). lra. }
      pose proof (Rabs_pos y). apply Rmult_le_reg_r with hi; [exact Pi|]. nra.
    + lra.
  - cbn [smul smax smin shalf spt9 SRa ScalarRnd].
    pose proof (rnd_low (h * Rmax (/ 2) (Rmin r (rnd (9 / 10))))) as X.
    pose proof (Rmax_l (/ 2) (Rmin r (rnd (9 / 10)))) as M. set (q := Rmax _ _) in *. clearbody q.
    rewrite Rabs_mult, (Rabs_pos_eq q) in X by lra. nra.
Qed.
End Arith.

Section Rnd.
Variables (u : R) (rnd : R -> R).
Hypothesis Hf : f64_like u rnd.
Let Hg : regular u rnd := f64_like_regular u rnd Hf.
Local Instance SRr : Scalar R := ScalarRnd rnd.
Context {LSt NSt : Type} `{LSolver R LSt} `{NLSolver R NSt}.
Variable prob : problem R.
Variable ewt_set : list R -> list R.
Hypothesis Hl : @nls_lawful R NSt _.
Notation n := (model_size prob).
Notation nr := (num_roots prob).
Notation state := (ida R LSt NSt).
Notation tr st := (trace (lp (nlp st))).
Variable c : @config R.
Hypothesis Hc : config_ok c.
Hypothesis Ht0 : rnd (g_t0 c) = g_t0 c.
Hypothesis Hts : forall ts, g_tstop c = Some ts -> rnd ts = ts.
Notation D := (D u rnd prob c).

Lemma D_in : i_in prob ewt_set D.
Proof.
  split; [exact (D_begin u rnd Hg prob ewt_set c Hts)|]. split; [exact (D_retry u rnd Hg prob ewt_set c)|].
  split; [exact (D_commit u rnd Hg prob ewt_set c)|exact (D_giveup u rnd Hg prob ewt_set c)].
Qed.

Lemma pieces_D (st s : state) : ordok st -> D None st -> pieces prob ewt_set st s -> ordok s /\ D None s.
Proof.
  intros O TL P. refine (pieces_life prob ewt_set Hl D st s _ _ _ _ P O TL).
  - apply D_shell.
  - exact (D_lims u rnd Hg prob c Hts).
  - exact (D_first u rnd Hg prob ewt_set c Hts).
  - apply D_in.
Qed.

(** ** One accepted step *)
Lemma tries_sign_rnd t0 (st0 sta : state) nef : hh st0 <> 0 -> tries prob t0 st0 sta nef -> 0 < hh sta * hh st0.
Proof.
  intros Hh. induction 1 as [|st nef st1 ck ek ek1 st' _ IH _ Htr Hn Hrt]; [exact (sq_pos _ Hh)|].
  pose proof (rt_hh _ _ _ _ _ Hrt) as E. pose proof (tr_h _ _ _ _ _ Htr) as E1. injection E1 as E1 _ _.
  destruct (factor_rnd u rnd Hg (hh st) (nef + 1) (rr st')) as (q & Hq & Eq); [lia| |].
  { split; intros Hn'.
    - apply (rt_rr0 _ _ _ _ _ Hrt). lia.
    - apply (rt_rr1 _ _ _ _ _ Hrt). lia. }
  rewrite E, E1. change (0 < rnd (hh st * rr st') * hh st0). rewrite Eq.
  replace (q * hh st * hh st0) with (q * (hh st * hh st0)) by ring. nra.
Qed.

Lemma D_h o (st : state) : D (Some o) st -> hh st <> 0 /\ Rabs (hh st) * g_hmax_inv c <= slack u.
Proof. intros (_ & Q). apply (dl_h _ _ _ _ _ Q). right. discriminate. Qed.

Lemma D_next o (st : state) : D (Some o) st -> fst o = tn (nlp st).
Proof. intros (L & _). destruct o as [t k]. pose proof (tl_in _ _ _ _ L) as (Q & _). exact Q. Qed.

Lemma step_time_rnd fuel (st st' : state) v :
  ordok st -> D None st -> limited st -> fresh prob ewt_set st -> step prob fuel st = Ret (st', Ok v) ->
  exists h, tn (nlp st') = rnd (tn (nlp st) + h) /\ 0 <= (tn (nlp st') - tn (nlp st)) * h /\
    0 < h * hh st /\ 0 < hh st' * h /\ Rabs h <= 23 / 10 * Rabs (hh st').
Proof.
  intros O J0 L F Es.
  pose proof (D_begin u rnd Hg prob ewt_set c Hts st O J0 L F) as Ji.
  pose proof (instep_init _ O) as Hi.
  destruct (step_spec prob Hl _ _ _ _ O Es) as (sta & nef & st1 & ck & ek & ek1 & r1 & Ht & E1 & Htr & [(-> & _ & st2 & Hcp & ->)|(e & _ & _ & [(_ & _ & _ & C & _)|(_ & C & _)])]); try discriminate.
  destruct (tries_life prob Hl D _ _ _ _ (D_retry u rnd Hg prob ewt_set c) Hi Ji Ht) as (Hia & Ja).
  pose proof (try_step_calls prob Hl _ _ _ _ _ _ (is_arr _ Hia) ltac:(pose proof (is_kk _ Hia); pose proof (is_max _ Hia); lia) E1) as At.
  destruct (dl_try u rnd Hg prob ewt_set c sta st1 (tn (nlp st)) nef ck (Ok tt) Hia Ja Htr At) as (evs & _ & _ & _ & Hn & Hn' & _).
  destruct (D_h _ _ Ja) as (B1 & B2). pose proof (D_next _ _ Ja) as Hn2. cbn [fst] in Hn2. destruct Ja as (La & _).
  pose proof (tr_h _ _ _ _ _ Htr) as U2. pose proof (tr_tn _ _ _ _ _ Htr) as U3.
  pose proof (cp_nlp _ _ _ Hcp) as U4. pose proof (cp_hh _ _ _ Hcp) as U8.
  assert (Hcf : cfg st1 = cfg sta) by apply Htr. apply cfg_fields in Hcf.
  assert (Hmi : hmax_inv st1 = g_hmax_inv c).
  { pose proof (tl_cfg _ _ _ _ La) as Q. unfold cfg_is in Q. destruct Q as (_ & _ & _ & Q & _). rewrite <- Q. tauto. }
  assert (Hh1 : hh st1 = hh sta) by congruence. rewrite Hmi, Hh1 in U8.
  assert (Etn : tn (nlp (st_commit prob ck st2)) = tn_next sta) by (cbn; rewrite U4; exact U3).
  assert (Ehh : hh (st_commit prob ck st2) = hh st2) by reflexivity.
  destruct (init_fields st) as (_ & _ & _ & _ & _ & _ & Hh0 & _).
  assert (Hne : hh st <> 0).
  { rewrite <- Hh0. exact (proj1 (D_h _ _ Ji)). }
  exists (hh sta). rewrite Etn, Ehh, Hn2. split; [exact Hn|]. split; [exact Hn'|]. split.
  { rewrite <- Hh0 in *. apply (tries_sign_rnd _ _ _ _ Hne Ht). }
  destruct (next_h_rnd u rnd Hg _ _ _ B1 B2 U8) as (_ & _ & C3). split; [exact C3|].
  exact (next_h_low u rnd Hf _ _ _ B1 B2 U8).
Qed.

(** ** The output time at the loop head *)
Lemma neg_rnd x h : Rleb 0 (rnd (rnd x * h)) = false -> x * h < 0.
Proof.
  intros E. apply Rleb_false in E. apply (rnd_neg_inv u rnd Hg) in E.
  destruct (Rtotal_order x 0) as [A|[A|A]].
  - pose proof (rnd_neg u rnd Hg _ A). nra.
  - subst x. assert (Z : rnd 0 = 0). { pose proof Hf as (_ & E0 & _). specialize (E0 0). rewrite Rminus_0_r, Rabs_R0, Rmult_0_r in E0. apply Rabs_def1 in E0 || idtac. pose proof (Rabs_pos (rnd 0)). destruct (Req_dec (rnd 0) 0) as [|Ne]; [assumption|]. pose proof (Rabs_pos_lt _ Ne). lra. }
    rewrite Z in E. lra.
  - pose proof (rnd_pos u rnd Hg _ A). nra.
Qed.

Lemma head_tout_rnd (st s : state) tout : ordok st -> D None st -> head prob ewt_set tout Normal st s ->
  0 < (tout - tn (nlp s)) * hh s.
Proof.
  intros O Ji Hd. destruct (pieces_D _ _ O Ji (hd_pieces _ _ _ _ _ _ Hd)) as (Os & Js).
  destruct (hd_ahead _ _ _ _ _ _ Hd) as [(Hz & s1 & P1 & Lm & A)|(Hz & a & s1 & P1 & F1 & S1 & Ha)].
  - specialize (A eq_refl). apply neg_rnd in A.
    destruct (pieces_D _ _ O Ji P1) as (O1 & J1).
    assert (Hz1 : nst s1 <> 0%nat) by (rewrite <- (lims_nst _ _ Lm); exact Hz).
    assert (Es : exists b rest, steps (tr s) = b :: rest).
    { pose proof (tl_n _ _ _ _ (proj1 Js)) as E. destruct (steps (tr s)) as [|b rest]; [cbn in E; lia|eauto]. }
    destruct Es as (b & rest & Es).
    destruct (lims_fields _ _ Lm) as (h & Eh).
    assert (Etr : tr s = tr s1) by (rewrite Eh; reflexivity).
    assert (Etn : tn (nlp s) = tn (nlp s1)) by (rewrite Eh; reflexivity).
    pose proof (dl_sign _ _ _ _ _ (proj2 Js)) as Q1. pose proof (dl_sign _ _ _ _ _ (proj2 J1)) as Q2.
    rewrite <- Etr in Q2. rewrite Es in Q1, Q2. apply Forall_inv in Q1; apply Forall_inv in Q2.
    rewrite Etn.
    destruct (same_sign_cases (hh s) (a_h b)) as [(?&?)|(?&?)], (same_sign_cases (hh s1) (a_h b)) as [(?&?)|(?&?)];
      try assumption; try lra; nra.
  - destruct (first_call_rnd u rnd Hg prob ewt_set a s1 tout F1) as (_ & Q & _).
    pose proof (first_call_frame _ _ _ _ _ F1) as (Fk & _). apply fkeep_fields in Fk.
    assert (Et : tn (nlp s1) = tn (nlp a)) by tauto.
    pose proof (core_fields _ _ (sh_core _ _ _ S1)) as Cf.
    assert (E1 : hh s = hh s1) by tauto. assert (E2 : tn (nlp s) = tn (nlp s1)) by tauto.
    rewrite E1, E2, Et. exact Q.
Qed.

(** ** The search after a step *)
Notation Qt := (fun (_ : LSt) (_ : mat R) => True).
Notation wft := (wf prob Qt).

Lemma still_fields (a b : state) : still a b -> tlo b = tlo a /\ toutc b = toutc a /\ taskc b = taskc a /\ cfg b = cfg a.
Proof.
  intros (E & _). split; [exact (f_equal (fun x => snd (fst (fst (fst x)))) E)|].
  split; [exact (f_equal (fun x => fst (fst (snd x))) E)|].
  split; [exact (f_equal (fun x => snd (fst (snd x))) E)|exact (f_equal (fun x => snd (snd x)) E)].
Qed.

Lemma cfg_nrtfn (a b : state) : cfg b = cfg a -> nrtfn b = nrtfn a.
Proof. intros E. apply cfg_fields in E. tauto. Qed.

Lemma shell_tnh (a b : state) : shell prob a b -> tn (nlp b) = tn (nlp a) /\ hh b = hh a.
Proof. intros S. pose proof (core_fields _ _ (sh_core _ _ _ S)) as Cf. tauto. Qed.

Lemma shell_nrtfn (a b : state) : shell prob a b -> nrtfn b = nrtfn a.
Proof. intros S. pose proof (core_fields _ _ (sh_core _ _ _ S)) as Cf. apply cfg_nrtfn. tauto. Qed.

Lemma ready_settles (a : state) : search_ready rnd prob a -> settles (fun f => r_check3 prob f a).
Proof.
  intros Rd. destruct (INR_above (5 * (Rabs (search_end rnd a - tlo a) / exact_tol a) + 1)) as (N & HN).
  destruct (C86_search_terminates u rnd Hf prob N a Rd HN) as (b & r & E & _).
  exists N, (b, r). intros f Lf. exact (r_check3_more prob N a _ f Lf E).
Qed.

(** Where the search ends when the output time is not behind. *)
Lemma end_tn (a : state) tout itask : taskc a = itask -> (itask = Normal -> toutc a = tout) ->
  (itask = Normal -> (tn (nlp a) - tout) * hh a < 0) -> search_end rnd a = tn (nlp a).
Proof.
  intros Ea Eo Hn. unfold search_end, get_current_time, get_current_setp. rewrite Ea. destruct itask; [|reflexivity].
  rewrite (Eo eq_refl). specialize (Hn eq_refl). destruct (Rle_dec _ _) as [_|C]; [reflexivity|]. exfalso. apply C.
  apply (rnd_nonneg u rnd Hg). apply Rlt_le. apply (rnd_same u rnd Hg). nra.
Qed.

Section Call.
Variable st : state.
Hypothesis O : ordok st.
Hypothesis W : wft st.
Hypothesis Ds : D None st.
Variables (tout : R) (itask : task).

Definition Inv (s : state) : Prop :=
  taskc s = itask /\ (itask = Normal -> toutc s = tout) /\ ((0 < nrtfn s)%nat -> Rabs (tlo s) <= 11 / 10 * Rabs (tn (nlp s))).

Lemma piece_ready (a : state) : pieces prob ewt_set st a -> nst a <> 0%nat ->
  arrays a /\ (kused a <= 5)%nat /\ get_current_setp a <> 0 /\ length (glo a) = nr.
Proof.
  intros P Hz. destruct (pieces_D _ _ O Ds P) as (Oa & Da). pose proof (in_wf prob ewt_set Hl st W a P) as Wa.
  split; [apply Oa|]. split; [destruct Oa; lia|]. split.
  - unfold get_current_setp. destruct Da as (_ & Q). apply (dl_h _ _ _ _ _ Q). left. exact Hz.
  - exact (wf_glo _ _ _ Wa).
Qed.

Lemma after_step rfuel (s s1 s2 : state) tret nl v : head prob ewt_set tout itask st s -> Inv s ->
  pre_step prob ewt_set s tret nl = Ret (inr s1) -> step prob rfuel s1 = Ret (s2, Ok v) ->
  taskc s2 = itask /\ (itask = Normal -> toutc s2 = tout) /\ nrtfn s2 = nrtfn s /\
  ((0 < nrtfn s2)%nat -> search_ready rnd prob s2).
Proof.
  intros Hd (I1 & I2 & I3) Ep Es.
  pose proof (head_step _ _ _ _ _ _ _ _ _ _ _ _ Hd Ep Es) as P2.
  pose proof (step_ok_nst _ _ _ _ _ Es) as Hz.
  pose proof (still_pre _ _ _ _ _ _ Ep) as Q1. cbv beta iota in Q1.
  pose proof (pre_step_shell _ _ _ _ _ _ Ep) as (S1 & _).
  pose proof (pieces_shell _ _ _ _ _ (hd_pieces _ _ _ _ _ _ Hd) S1) as P1.
  destruct (pieces_D _ _ O Ds P1) as (O1 & D1).
  pose proof (still_step prob Hl _ _ _ _ O1 Es) as Q2.
  destruct (still_fields _ _ (still_trans _ _ _ Q1 Q2)) as (F1 & F2 & F3 & F4). apply cfg_nrtfn in F4.
  split; [congruence|]. split; [intros E; rewrite F2; auto|]. split; [exact F4|].
  intros Hp. destruct (piece_ready _ P2 Hz) as (A1 & A2 & A3 & A4).
  destruct (step_time_rnd rfuel s1 s2 v O1 D1 (shell_limited _ _ _ S1 (hd_lim _ _ _ _ _ _ Hd))
    (shell_fresh _ _ _ _ S1 (hd_fresh _ _ _ _ _ _ Hd)) Es) as (h & B1 & B2 & B3 & B4 & B5).
  destruct (shell_tnh _ _ S1) as (E1 & E2). rewrite E1 in B1, B2. rewrite E2 in B3.
  specialize (I3 ltac:(rewrite <- F4; exact Hp)).
  assert (X : Rabs (tn (nlp s)) <= 11 / 10 * Rabs (tn (nlp s2)) + 23 / 10 * Rabs (hh s2)).
  { pose proof (rnd_low u rnd Hf (tn (nlp s) + h)) as X. rewrite <- B1 in X.
    pose proof (Rabs_triang (tn (nlp s) + h) (- h)) as Y. replace (tn (nlp s) + h + - h) with (tn (nlp s)) in Y by ring.
    rewrite Rabs_Ropp in Y. lra. }
  pose proof (Rabs_pos (tn (nlp s2))). pose proof (Rabs_pos (hh s2)).
  split; [exact A1|]. split; [exact A2|]. split; [exact A3|]. split; [exact A4|].
  unfold get_current_time, get_current_setp. rewrite F1. split; [lra|].
  unfold search_end, get_current_time, get_current_setp. rewrite F3, I1. destruct itask eqn:Ei; [|lra].
  destruct (Rle_dec _ _) as [_|C]; [lra|]. rewrite F2, (I2 eq_refl) in *.
  assert (C' : (tout - tn (nlp s2)) * hh s2 < 0).
  { apply neg_rnd. destruct (Rleb 0 _) eqn:Eb; [|reflexivity]. exfalso. apply C. apply Rleb_true in Eb. exact Eb. }
  pose proof (head_tout_rnd st s tout O Ds Hd) as Ht.
  assert (Bt : Rabs tout <= Rmax (Rabs (tn (nlp s))) (Rabs (tn (nlp s2)))).
  { clear - C' Ht B2 B3 B4. destruct (Rtotal_order h 0) as [L|[L|L]].
    - assert (hh s2 < 0) by nra. assert (hh s < 0) by nra. assert (tn (nlp s2) < tout) by nra. assert (tout < tn (nlp s)) by nra.
      unfold Rmax, Rabs. destruct (Rcase_abs tout), (Rcase_abs (tn (nlp s))), (Rcase_abs (tn (nlp s2))), (Rle_dec _ _); lra.
    - subst h. lra.
    - assert (0 < hh s2) by nra. assert (0 < hh s) by nra. assert (tout < tn (nlp s2)) by nra. assert (tn (nlp s) < tout) by nra.
      unfold Rmax, Rabs. destruct (Rcase_abs tout), (Rcase_abs (tn (nlp s))), (Rcase_abs (tn (nlp s2))), (Rle_dec _ _); lra. }
  revert Bt. unfold Rmax. destruct (Rle_dec _ _); lra.
Qed.

Lemma post_inv rfuel (s2 s' : state) tret t :
  taskc s2 = itask -> (itask = Normal -> toutc s2 = tout) -> ((0 < nrtfn s2)%nat -> search_ready rnd prob s2) ->
  post_step prob rfuel s2 tout tret itask = Ret (s', t, Ok ContinueSteps) -> Inv s'.
Proof.
  intros G1 G2 G3 E. unfold post_step in E. apply bind_ret_inv in E. destruct E as (x & Ex & E). cbv beta in E.
  destruct x as [a|b]; [|].
  { exfalso. destruct (Nat.ltb_spec 0 (nrtfn s2)) as [Hp|Hp]; [|discriminate].
    apply bind_ret_inv in Ex. destruct Ex as ((b & q) & Ex & E'). cbv beta iota in E'. destruct q; [|discriminate].
    injection E' as <-. discriminate. }
  pose proof (stop_test2_shell _ _ _ _ _ _ _ _ E) as [(_ & L & _ & En & Ez)|(Cx & _)]; [|congruence].
  destruct (still_fields _ _ (still_lims _ _ L)) as (F1 & F2 & F3 & F4). apply cfg_nrtfn in F4.
  destruct (lims_fields _ _ L) as (h & Eh). assert (Etn : tn (nlp s') = tn (nlp b)) by (rewrite Eh; reflexivity).
  unfold Inv. rewrite F1, F2, F3, F4, Etn.
  destruct (Nat.ltb_spec 0 (nrtfn s2)) as [Hp|Hp].
  - apply bind_ret_inv in Ex. destruct Ex as ((b' & q) & Ex & E'). cbv beta iota in E'. destruct q; [discriminate|].
    injection E' as <-. destruct (check3_asked _ _ _ _ Ex) as (Ea & _). injection Ea as Ea1 Ea2.
    pose proof (r_check3_shell _ _ _ _ _ Ex) as S3. destruct (shell_tnh _ _ S3) as (T1 & T2).
    rewrite Ea1, Ea2. split; [exact G1|]. split; [exact G2|]. intros _.
    destruct (C86_no_root_missed u rnd Hf prob rfuel s2 b' (G3 Hp) Ex) as (-> & _).
    rewrite (end_tn s2 tout itask G1 G2), T1; [pose proof (Rabs_pos (tn (nlp s2))); lra|].
    intros _. rewrite T1, T2 in Ez. exact (neg_rnd _ _ Ez).
  - injection Ex as <-. split; [exact G1|]. split; [exact G2|]. intros C. lia.
Qed.

(** ** The search at the start of a call *)
(** What a call needs of the state it finds, if it is not the first and there are
    root functions: the left end of the search is not farther from the origin than three times
    the current time and step together, and neither is the output time, unless it is ahead; the left end
    is close to the current time, or the last returned time is not. *)
Definition call_ready : Prop :=
  nst st <> 0%nat -> (0 < nrtfn st)%nat ->
  Rabs (tlo st) <= 3 * (Rabs (get_current_time st) + Rabs (get_current_setp st)) /\
  (itask = Normal -> 0 <= (tout - get_current_time st) * get_current_setp st \/
     Rabs tout <= 3 * (Rabs (get_current_time st) + Rabs (get_current_setp st))) /\
  (Rabs (tlo st) <= 11 / 10 * Rabs (get_current_time st) \/
   exact_tol st * (1 + 6 * u) < Rabs (get_current_time st - tretlast st)).
Hypothesis Hk : call_ready.

Lemma tset_asked : taskc (task_set st tout itask) = itask /\ (itask = Normal -> toutc (task_set st tout itask) = tout) /\
  tlo (task_set st tout itask) = tlo st /\ nrtfn (task_set st tout itask) = nrtfn st /\ tretlast (task_set st tout itask) = tretlast st /\
  nst (task_set st tout itask) = nst st.
Proof. unfold task_set. destruct itask; repeat split; try reflexivity; intros; try discriminate; reflexivity. Qed.

Lemma check2_ready (a b : state) : pieces prob ewt_set st a -> still (task_set st tout itask) a -> shell prob (task_set st tout itask) a ->
  nst a <> 0%nat -> (0 < nrtfn a)%nat -> r_check2 prob a = Ret (b, Ok RootContinue) ->
  taskc b = itask /\ (itask = Normal -> toutc b = tout) /\ search_ready rnd prob b /\ tlo b = tlo st /\
  tn (nlp b) = tn (nlp st) /\ hh b = hh st /\ tretlast b = tretlast a.
Proof.
  intros P Q S Hz Hp E. destruct tset_asked as (X1 & X2 & X3 & X4 & X5 & X6).
  destruct (still_fields _ _ Q) as (F1 & F2 & F3 & F4). apply cfg_nrtfn in F4.
  destruct (check2_asked _ _ _ _ E) as (Ea & Et & Er). injection Ea as Ea1 Ea2.
  pose proof (r_check2_shell _ _ _ _ E) as S2.
  destruct (shell_tnh _ _ S) as (T1 & T2). destruct (shell_tnh _ _ S2) as (T3 & T4).
  assert (Et0 : tn (nlp (task_set st tout itask)) = tn (nlp st)) by (unfold task_set; destruct itask; reflexivity).
  assert (Eh0 : hh (task_set st tout itask) = hh st) by (unfold task_set; destruct itask; reflexivity).
  assert (Tn : tn (nlp b) = tn (nlp st)) by congruence. assert (Th : hh b = hh st) by congruence.
  assert (G1 : taskc b = itask) by congruence. assert (G2 : itask = Normal -> toutc b = tout) by (intros G; rewrite Ea1, F2; auto).
  assert (G3 : tlo b = tlo st) by congruence.
  split; [exact G1|]. split; [exact G2|]. split; [|repeat split; assumption].
  destruct Hk as (K1 & K2 & K3).
  { rewrite <- X6, <- (shell_nst _ _ _ S). exact Hz. }
  { rewrite <- X4, <- F4. exact Hp. }
  destruct (piece_ready b) as (A1 & A2 & A3 & A4).
  { exact (pieces_shell _ _ _ _ _ P S2). }
  { rewrite (shell_nst _ _ _ S2). exact Hz. }
  split; [exact A1|]. split; [exact A2|]. split; [exact A3|]. split; [exact A4|].
  unfold get_current_time, get_current_setp in *. rewrite G3, Tn, Th. split; [exact K1|].
  assert (Y : Rabs (tn (nlp st)) <= 3 * (Rabs (tn (nlp st)) + Rabs (hh st))).
  { pose proof (Rabs_pos (tn (nlp st))). pose proof (Rabs_pos (hh st)). lra. }
  unfold search_end, get_current_time, get_current_setp. rewrite G1, Tn, Th. destruct itask eqn:Ei; [|exact Y].
  rewrite (G2 eq_refl). destruct (Rle_dec _ _) as [_|C]; [exact Y|]. destruct (K2 eq_refl) as [K|K]; [|exact K].
  exfalso. apply C. apply (rnd_nonneg u rnd Hg). destruct (Rle_or_lt 0 (rnd (tout - tn (nlp st)) * hh st)) as [V|V]; [exact V|].
  exfalso. assert (V' : (tout - tn (nlp st)) * hh st < 0).
  { apply neg_rnd. apply Rleb_false. exact (rnd_neg u rnd Hg _ V). }
  lra.
Qed.

Lemma later_ready (a : state) tret : pieces prob ewt_set st a -> still (task_set st tout itask) a -> shell prob (task_set st tout itask) a ->
  nst a <> 0%nat -> settles (fun f => later_call prob f a tout tret itask).
Proof.
  intros P Q S Hz. apply later_settle; [exact (in_wf prob ewt_set Hl st W a P)|].
  intros b Hp E _. apply ready_settles. exact (proj1 (proj2 (proj2 (check2_ready a b P Q S Hz Hp E)))).
Qed.

Lemma enters_inv rfuel tret (s : state) : enters prob ewt_set rfuel st tout tret itask s -> Inv s.
Proof.
  intros En. destruct tset_asked as (X1 & X2 & X3 & X4 & X5 & X6). unfold enters in En.
  destruct (solve_start_cases _ _ _ _ _ _ _ _ En) as [(Hz & s0 & m & _ & C)|[(Hz & s0 & l & E1 & _ & _ & _ & Q)|(Hz & l & E1 & S1 & Q)]].
  - discriminate.
  - injection Q as ->. destruct (first_asked _ _ _ _ _ E1) as (Ea & Et & En' & El). injection Ea as Ea1 Ea2.
    split; [exact (eq_trans Ea2 X1)|]. split; [intros G; exact (eq_trans Ea1 (X2 G))|].
    intros Hp. assert (Hp0 : (0 < nrtfn (task_set st tout itask))%nat) by (rewrite <- En'; exact Hp). specialize (El Hp0).
    assert (Ex : tlo (on_lp (fun _ => l) s0) = tn (nlp (on_lp (fun _ => l) s0))).
    { transitivity (tlo s0); [reflexivity|]. transitivity (tn (nlp s0)); [congruence|reflexivity]. }
    rewrite Ex. pose proof (Rabs_pos (tn (nlp (on_lp (fun _ => l) s0)))). lra.
  - pose proof (still_perf prob _ _ _ E1) as Q0.
    assert (Er : tretlast (on_lp (fun _ => l) (task_set st tout itask)) = tretlast st) by exact X5.
    set (a := on_lp (fun _ => l) (task_set st tout itask)) in *. clearbody a.
    assert (P : pieces prob ewt_set st a).
    { eapply pieces_shell; [|exact S1]. apply piece1. apply p_shell. apply task_set_shell. }
    assert (Hza : nst a <> 0%nat) by (rewrite (shell_nst _ _ _ S1); exact Hz).
    unfold later_call in Q. apply bind_ret_inv in Q. destruct Q as (y & Ey & Q). cbv beta in Q.
    destruct y as [z|b]; [discriminate|]. apply bind_ret_inv in Q. destruct Q as (((s' & t') & r) & Es & Q). cbv beta iota in Q.
    destruct r as [[]|]; try discriminate. injection Q as <- <-.
    pose proof (stop_test1_shell _ _ _ _ _ _ _ _ Es) as [(_ & Lm & _ & _ & Ez)|(C & _)]; [|congruence].
    destruct (still_fields _ _ (proj1 (still_stop1 _ _ _ _ _ _ _ _ Es))) as (F1 & F2 & F3 & F4). apply cfg_nrtfn in F4.
    destruct (lims_fields _ _ Lm) as (h & Eh). assert (Etn : tn (nlp s') = tn (nlp b)) by (rewrite Eh; reflexivity).
    clear Eh Es Lm. unfold Inv. rewrite F1, F2, F3, F4, Etn. clear F1 F2 F3 F4 Etn.
    destruct (Nat.ltb_spec 0 (nrtfn a)) as [Hp|Hp].
    + apply bind_ret_inv in Ey. destruct Ey as ((d & q) & E2 & Ey). cbv beta iota in Ey.
      destruct q as [[|]|e]; try discriminate.
      destruct (check2_ready a d P Q0 S1 Hza Hp E2) as (G1 & G2 & Rd & G3 & G4 & G5 & G6).
      destruct (root_ttol d <? sabs (tn (nlp d) - tretlast d))%sc eqn:Eb.
      * apply bind_ret_inv in Ey. destruct Ey as ((e & q) & E3 & Ey). cbv beta iota in Ey. destruct q; [discriminate|].
        assert (Eb' : b = set_irfnd false e).
        { clear - Ey. destruct itask; [injection Ey as <-; reflexivity|]. destruct (irfnd a); [|injection Ey as <-; reflexivity].
          apply bind_ret_inv in Ey. destruct Ey as ((? & ?) & _ & Ey). discriminate. }
        destruct (check3_asked _ _ _ _ E3) as (Ea & _). injection Ea as Ea1 Ea2.
        pose proof (r_check3_shell _ _ _ _ _ E3) as S3. destruct (shell_tnh _ _ S3) as (T1 & T2).
        destruct (C86_no_root_missed u rnd Hf prob rfuel d e Rd E3) as (Et & _).
        assert (V1 : taskc b = taskc e) by (rewrite Eb'; reflexivity).
        assert (V2 : toutc b = toutc e) by (rewrite Eb'; reflexivity).
        assert (V3 : tlo b = tlo e) by (rewrite Eb'; reflexivity).
        assert (V4 : tn (nlp b) = tn (nlp e)) by (rewrite Eb'; reflexivity).
        assert (V5 : hh b = hh e) by (rewrite Eb'; reflexivity).
        clear Eb' Ey. rewrite V1, V2, V3, V4, Ea1, Ea2. rewrite V4, V5 in Ez.
        split; [exact G1|]. split; [exact G2|]. intros _. rewrite Et, T1.
        rewrite (end_tn d tout itask G1 G2); [pose proof (Rabs_pos (tn (nlp d))); lra|].
        intros G. specialize (Ez G). rewrite T1, T2 in Ez. exact (neg_rnd _ _ Ez).
      * injection Ey as <-. split; [exact G1|]. split; [exact G2|]. intros _.
        rewrite G3, G4. destruct Hk as (_ & _ & [K|K]).
        { rewrite <- X6, <- (shell_nst _ _ _ S1). exact Hza. }
        { destruct (still_fields _ _ Q0) as (_ & _ & _ & F4). apply cfg_nrtfn in F4. rewrite <- X4, <- F4. exact Hp. }
        { exact K. }
        exfalso. apply Rltb_false in Eb. cbn [sabs SRr ScalarRnd] in Eb. unfold get_current_time in K.
        rewrite G4, G6, Er in Eb.
        pose proof (tol_near u rnd Hf d) as (_ & T2).
        assert (Ex : exact_tol d = exact_tol st) by (unfold exact_tol, get_current_time, get_current_setp; rewrite G4, G5; reflexivity).
        rewrite Ex in T2. set (x := tn (nlp st) - tretlast st) in *.
        assert (Eb' : Rabs (rnd x) <= exact_tol st * (1 + 4 * u)) by (eapply Rle_trans; [exact Eb|exact T2]).
        pose proof Hf as (U & Eu & _). specialize (Eu x).
        pose proof (Rabs_triang_inv x (x - rnd x)) as Y. replace (x - (x - rnd x)) with (rnd x) in Y by ring.
        rewrite Rabs_minus_sym in Eu.
        assert (Z1 : (1 - u) * Rabs x <= exact_tol st * (1 + 4 * u)) by lra.
        assert (Z0 : 0 <= exact_tol st).
        { unfold exact_tol. pose proof (Rabs_pos (get_current_time st)). pose proof (Rabs_pos (get_current_setp st)). lra. }
        assert (Z2 : exact_tol st * (1 + 4 * u) <= (1 - u) * (exact_tol st * (1 + 6 * u))).
        { replace ((1 - u) * (exact_tol st * (1 + 6 * u))) with (exact_tol st * ((1 - u) * (1 + 6 * u))) by ring.
          apply Rmult_le_compat_l; [exact Z0|nra]. }
        assert (Z3 : (1 - u) * (exact_tol st * (1 + 6 * u)) < (1 - u) * Rabs x) by (apply Rmult_lt_compat_l; [lra|exact K]).
        lra.
    + injection Ey as <-. destruct (still_fields _ _ Q0) as (F1 & F2 & F3 & F4).
      split; [congruence|]. split; [intros G; rewrite F2; auto|]. intros C. lia.
Qed.

Lemma call_settles fuel tret : (forall a : state, wft a -> settles (fun f => step prob f a)) -> (0 < g_mxstep c < fuel)%nat ->
  settles (fun f => solve prob ewt_set fuel f st tout tret itask).
Proof.
  intros Hst Hm. refine (solve_settle prob ewt_set Hl c Hc st O W (proj1 Hm) (proj1 Ds) tout itask Inv _ _ _ _ fuel tret (proj2 Hm)).
  - exact later_ready.
  - exact enters_inv.
  - intros s tr' nl s1 Hd _ Ep. apply Hst. pose proof (pre_step_shell _ _ _ _ _ _ Ep) as (S1 & _). refine (wf_shell _ _ _ _ S1 _).
    exact (in_wf prob ewt_set Hl st W s (hd_pieces _ _ _ _ _ _ Hd)).
  - intros rfuel s tr' nl s1 s2 v Hd Hi Ep Es. destruct (after_step rfuel s s1 s2 tr' nl v Hd Hi Ep Es) as (G1 & G2 & _ & G4). split.
    + apply post_settle; [exact (in_wf prob ewt_set Hl st W s2 (head_step _ _ _ _ _ _ _ _ _ _ _ _ Hd Ep Es))|].
      intros Hp. apply ready_settles. exact (G4 Hp).
    + intros s' t. exact (post_inv rfuel s2 s' tr' t G1 G2 G4).
Qed.
End Call.

(** Whatever solver is used, if it returns so do the steps. *)
Lemma stepping_settle :
  (forall (s : NSt) y, exists s', nls_setup s y = Ret s') ->
  (forall (s : NSt) (x : nlprob R LSt) y0 y w tol call, exists r,
     nls_solve _ (ida_nlproblem prob) n s x y0 y w tol call = Ret r) ->
  forall a : state, wft a -> settles (fun f => step prob f a).
Proof.
  intros Hset Hsol a Wa. destruct (safe_false (step prob (Nat.max 3 (maxnef a)) a)) as (x & E).
  { apply (step_safe prob Hl False Qt (any_preserved prob (fun _ _ => True) (fun _ _ => I))); [| |exact Wa|lia].
    - intros s y. destruct (Hset s y) as (s' & ->). exact I.
    - intros s x y0 y w tol call _. destruct (Hsol s x y0 y w tol call) as (r & ->). exact I. }
  exists (Nat.max 3 (maxnef a)), x. intros f L. exact (step_settles _ _ _ _ E f L).
Qed.

(** ** C87, the part that holds *)
(** A call made in a state that is ready for it returns: there is an amount of fuel
    for the inner loops from which on it has one and the same result.  [fuel] is the
    number of internal steps, bounded by the limit the user set.  Missing: calls in
    states that are not ready; [C87_refuted] is one that does not return. *)
Theorem C87_call_returns_partial yy0 yp0 (st : state) fuel tout tret itask :
  (forall (s : NSt) y, exists s', nls_setup s y = Ret s') ->
  (forall (s : NSt) (x : nlprob R LSt) y0 y w tol call, exists r,
     nls_solve _ (ida_nlproblem prob) n s x y0 y w tol call = Ret r) ->
  reach prob ewt_set c yy0 yp0 st -> call_ready st tout itask -> (0 < g_mxstep c < fuel)%nat ->
  exists N st' t r, forall rfuel, (N <= rfuel)%nat -> solve prob ewt_set fuel rfuel st tout tret itask = Ret (st', t, r).
Proof.
  intros Hs Hn Hr Hk Hm.
  pose proof (reach_ord prob ewt_set Hl c yy0 yp0 st Hc Hr) as O.
  pose proof (reach_wf prob ewt_set Hl Qt (any_preserved prob (fun _ _ => True) (fun _ _ => I)) c yy0 yp0 st Hc I Hr) as W.
  pose proof (reach_D u rnd Hg prob ewt_set Hl c Hc Ht0 Hts yy0 yp0 st Hr) as Ds.
  destruct (call_settles st O W Ds tout itask Hk fuel tret (stepping_settle Hs Hn) Hm) as (N & ((st' & t) & r) & E).
  exists N, st', t, r. exact E.
Qed.

(** Until the first step has been made a call always returns, with any root
    functions and any output time. *)
Theorem C87_first_call_returns yy0 yp0 (st : state) fuel tout tret itask :
  (forall (s : NSt) y, exists s', nls_setup s y = Ret s') ->
  (forall (s : NSt) (x : nlprob R LSt) y0 y w tol call, exists r,
     nls_solve _ (ida_nlproblem prob) n s x y0 y w tol call = Ret r) ->
  reach prob ewt_set c yy0 yp0 st -> get_num_steps st = 0%nat -> (0 < g_mxstep c < fuel)%nat ->
  exists N st' t r, forall rfuel, (N <= rfuel)%nat -> solve prob ewt_set fuel rfuel st tout tret itask = Ret (st', t, r).
Proof.
  intros Hs Hn Hr Hz Hm. apply (C87_call_returns_partial yy0 yp0 st fuel tout tret itask Hs Hn Hr); [|exact Hm].
  intros C. destruct (C Hz).
Qed.

(** Without root functions every call returns. *)
Theorem C87_no_roots_returns yy0 yp0 (st : state) fuel tout tret itask :
  (forall (s : NSt) y, exists s', nls_setup s y = Ret s') ->
  (forall (s : NSt) (x : nlprob R LSt) y0 y w tol call, exists r,
     nls_solve _ (ida_nlproblem prob) n s x y0 y w tol call = Ret r) ->
  reach prob ewt_set c yy0 yp0 st -> nr = 0%nat -> (0 < g_mxstep c < fuel)%nat ->
  exists N st' t r, forall rfuel, (N <= rfuel)%nat -> solve prob ewt_set fuel rfuel st tout tret itask = Ret (st', t, r).
Proof.
  intros Hs Hn Hr Hz Hm. apply (C87_call_returns_partial yy0 yp0 st fuel tout tret itask Hs Hn Hr); [|exact Hm].
  intros _ C. exfalso.
  pose proof (reach_tlink prob ewt_set Hl c Hc yy0 yp0 st Hr) as Lk. pose proof (tl_cfg _ _ _ _ Lk) as Q. unfold cfg_is in Q.
  assert (nrtfn st = nr) by tauto. lia.
Qed.
End Rnd.

Print Assumptions C87_call_returns_partial.
Print Assumptions C87_first_call_returns.
Print Assumptions C87_no_roots_returns.

(** ** The hypotheses can be met *)
Require Import Verif.Script Verif.ExampleR Verif.PropRoots Verif.ExampleRoot Verif.PropStepR.
Open Scope R_scope.

Local Instance NLS_X : NLSolver R (script R) := ScriptNLS [].

(** The second call of a life of a scalar equation with a root function. *)
Example C87_call_returns_partial_hypotheses_met : exists st : ida R (list nat) (script R), let rnd := fun x : R => x in
  f64_like (/ 9007199254740992) rnd /\ nls_lawful (T := R) (NSt := script R) /\ config_ok configQ /\
  rnd (g_t0 configQ) = g_t0 configQ /\ (forall ts, g_tstop configQ = Some ts -> rnd ts = ts) /\
  (forall (s : script R) (y : list R), exists s', nls_setup s y = Ret s') /\
  (forall (s : script R) (x : nlprob R (list nat)) y0 y w tol call, exists r,
     nls_solve _ (@ida_nlproblem R (list nat) (ScalarRnd rnd) _ (rootR above)) (model_size (rootR above)) s x y0 y w tol call = Ret r) /\
  @reach R (list nat) (script R) (ScalarRnd rnd) _ _ (rootR above) ewtR configQ [0] [1] st /\
  get_num_steps st <> 0%nat /\ (0 < nrtfn st)%nat /\ call_ready (/ 9007199254740992) st 1 OneStep /\ (0 < g_mxstep configQ < 600)%nat.
Proof.
  destruct above_run as (f & f' & st & st1 & st2 & t1 & t2 & s2 & s3 & _ & _ & _ & Hr & Se & _).
  exists st1. cbv zeta. split; [exact id_f64_like|]. split; [exact (script_lawful [])|]. split; [exact configQ_ok|].
  split; [reflexivity|]. split; [reflexivity|].
  split; [exact (script_setup_total [])|]. split; [exact (fun s x => script_solve_total (rootR above) [] s x)|]. split; [exact Hr|].
  pose proof (se_nst _ _ Se) as N. unfold get_num_steps. rewrite N. split; [discriminate|].
  split. { destruct (reached_cfg above st1 st1 Hr eq_refl) as (_ & _ & V & _). rewrite V. lia. }
  split; [|cbn; lia]. intros _ _. unfold get_current_time, get_current_setp. rewrite (se_tlo _ _ Se), (se_tn _ _ Se).
  rewrite (Rabs_pos_eq (1 / 2)) by lra. pose proof (Rabs_pos (hh st1)).
  split; [lra|]. split; [discriminate|]. left. lra.
Qed.

(** A new instance, before its first call. *)
Example C87_first_call_returns_hypotheses_met : exists st : ida R (list nat) (script R), let rnd := fun x : R => x in
  @reach R (list nat) (script R) (ScalarRnd rnd) _ _ (rootR above) ewtR configQ [0] [1] st /\
  get_num_steps st = 0%nat /\ num_roots (rootR above) = 1%nat /\ (0 < g_mxstep configQ < 600)%nat.
Proof.
  destruct (fresh_exists above) as (st0 & En). exists (configure configQ st0). cbv zeta.
  split; [constructor; exact En|]. split; [exact (su_nst _ (fresh_startable above _ En))|]. split; [reflexivity|cbn; lia].
Qed.

(** A life without root functions, after its first step. *)
Example C87_no_roots_returns_hypotheses_met : exists st : ida R (list nat) (script R), let rnd := fun x : R => x in
  let c := configR (Some 1) (/ 4) in
  config_ok c /\ @reach R (list nat) (script R) (ScalarRnd rnd) _ _ scalarR ewtR c [0] [1] st /\
  length (steps (trace (lp (nlp st)))) = 1%nat /\ num_roots scalarR = 0%nat.
Proof.
  destruct C49_hypotheses_met as (st & A & B & C). exists st. cbv zeta. split; [exact A|]. split; [exact B|]. split; [apply C|reflexivity].
Qed.
