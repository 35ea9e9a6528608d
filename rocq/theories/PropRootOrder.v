(** * PropRootOrder: C90, the times returned by lives with root functions
    In arithmetic with rounding: no returned time, root or output, is ahead of the
    internal time, and none is behind the one returned before, except for roots, by
    at most the tolerance of the root search. *)
Require Import List Arith Bool Lia Reals Lra Psatz.
Import ListNotations.
Require Import Verif.Base Verif.Scalar Verif.ScalarR Verif.RoundR Verif.Dense Verif.Norms Verif.Newton Verif.NewtonSpec
  Verif.IdaState Verif.IdaNls Verif.IdaCore Verif.IdaRoots Verif.IdaSolve Verif.IdaIo Verif.BaseFacts Verif.NewtonFacts
  Verif.IdaFacts Verif.IdaLoops Verif.IdaStep Verif.IdaSpec Verif.IdaShell Verif.IdaReach Verif.IdaInv
  Verif.IdaCount Verif.IdaLife Verif.IdaTrace Verif.IdaStepR Verif.IdaSafe Verif.IdaCall Verif.PropSafe
  Verif.IdaStepRnd Verif.PropTimesRnd Verif.RootRnd Verif.RootWalk Verif.PropRootsRnd Verif.PropReturn Verif.PropSolve Verif.ReturnAny
  Verif.PropReturnRnd Verif.PropForwardRnd Verif.PropOnward.
Open Scope R_scope.

(** ** Order in the direction of [h] *)
(** [b] is not behind [a]. *)
Definition upto (h a b : R) : Prop := 0 <= (b - a) * h.

Lemma upto_refl h a : upto h a a.
Proof. unfold upto. lra. Qed.
Lemma upto_trans h a b d : upto h a b -> upto h b d -> upto h a d.
Proof. unfold upto. lra. Qed.
Lemma upto_total h a b : upto h a b \/ upto h b a.
Proof. unfold upto. destruct (Rle_or_lt 0 ((b - a) * h)); [left|right]; lra. Qed.
Lemma upto_anti h a b : h <> 0 -> upto h a b -> upto h b a -> a = b.
Proof. unfold upto. intros Hh A B. destruct (Rtotal_order h 0) as [X|[X|X]]; [nra|lra|nra]. Qed.
Lemma upto_sign h h' a b : 0 < h * h' -> upto h a b -> upto h' a b.
Proof.
  unfold upto. intros S A. destruct (Rtotal_order h 0) as [X|[X|X]]; [|subst h; lra|].
  - assert (h' < 0) by nra. nra.
  - assert (0 < h') by nra. nra.
Qed.
Lemma upto_abs h a b d : h <> 0 -> upto h a b -> upto h b d -> Rabs (b - a) <= Rabs (d - a) /\ Rabs (d - b) <= Rabs (d - a).
Proof.
  unfold upto. intros Hh A B. destruct (Rtotal_order h 0) as [X|[X|X]]; [|lra|].
  - assert (b <= a) by nra. assert (d <= b) by nra. unfold Rabs. repeat destruct (Rcase_abs _); split; lra.
  - assert (a <= b) by nra. assert (b <= d) by nra. unfold Rabs. repeat destruct (Rcase_abs _); split; lra.
Qed.
Lemma upto_mix h a e x : 0 <= x <= 1 -> upto h a e -> upto h a (a + x * (e - a)) /\ upto h (a + x * (e - a)) e.
Proof. unfold upto. intros X A. split; nra. Qed.

Section Rnd.
Variables (u : R) (rnd : R -> R).
Hypothesis Hf : f64_like u rnd.
Let Hg : regular u rnd := f64_like_regular u rnd Hf.
Local Instance SRp : Scalar R := ScalarRnd rnd.
Context {LSt NSt : Type} `{LSolver R LSt} `{NLSolver R NSt}.
Variable prob : problem R.
Variable ewt_set : list R -> list R.
Hypothesis Hl : @nls_lawful R NSt _.
Notation nr := (num_roots prob).
Notation state := (ida R LSt NSt).
Variable c : @config R.
Hypothesis Hc : config_ok c.
Hypothesis Ht0 : rnd (g_t0 c) = g_t0 c.
Hypothesis Hnone : g_tstop c = None.
Hypothesis Hnr : (0 < nr)%nat.
Notation D := (D u rnd prob c).
Notation Qt := (fun (_ : LSt) (_ : mat R) => True).
Notation wft := (wf prob Qt).
Notation tol st := (exact_tol st * (1 + 6 * u)).
Notation Hts := (none_rep rnd c Hnone).

Lemma D_roots (s : state) : D None s -> tstop s = None /\ (0 < nrtfn s)%nat.
Proof.
  intros (L & _). destruct (tl_tstop _ _ _ _ L) as [Y|Y]; (split; [congruence|]);
    pose proof (tl_cfg _ _ _ _ L) as Q; unfold cfg_is in Q; assert (E : nrtfn s = nr) by tauto; rewrite E; exact Hnr.
Qed.

Lemma tol_pos (s : state) : 0 <= tol s.
Proof.
  pose proof (u_small u rnd Hf). unfold exact_tol. pose proof (Rabs_pos (get_current_time s)). pose proof (Rabs_pos (get_current_setp s)). nra.
Qed.

(** The check is skipped only if the last returned time is close. *)
Lemma skip_close (d : state) : (root_ttol d <? sabs (tn (nlp d) - tretlast d))%sc = false -> Rabs (tn (nlp d) - tretlast d) <= tol d.
Proof.
  intros Eb. apply Rltb_false in Eb. cbn [sabs SRp ScalarRnd] in Eb.
  pose proof (tol_near u rnd Hf d) as (_ & T2). set (x := tn (nlp d) - tretlast d) in *.
  assert (Eb' : Rabs (rnd x) <= exact_tol d * (1 + 4 * u)) by (eapply Rle_trans; [exact Eb|exact T2]).
  pose proof Hf as (U & Eu & _). specialize (Eu x).
  pose proof (Rabs_triang_inv x (x - rnd x)) as Y. replace (x - (x - rnd x)) with (rnd x) in Y by ring.
  rewrite Rabs_minus_sym in Eu.
  assert (Z1 : (1 - u) * Rabs x <= exact_tol d * (1 + 4 * u)) by lra.
  assert (Z0 : 0 <= exact_tol d).
  { unfold exact_tol. pose proof (Rabs_pos (get_current_time d)). pose proof (Rabs_pos (get_current_setp d)). lra. }
  assert (Z2 : exact_tol d * (1 + 4 * u) <= (1 - u) * (exact_tol d * (1 + 6 * u))).
  { replace ((1 - u) * (exact_tol d * (1 + 6 * u))) with (exact_tol d * ((1 - u) * (1 + 6 * u))) by ring.
    apply Rmult_le_compat_l; [exact Z0|nra]. }
  apply Rmult_le_reg_l with (1 - u); [lra|]. lra.
Qed.

(** Where a search ends. *)
Lemma found_between fuel (a b : state) : search_ready rnd prob a -> r_check3 prob fuel a = Ret (b, RootFound) ->
  forall h, upto h (tlo a) (search_end rnd a) -> upto h (tlo a) (tlo b) /\ upto h (tlo b) (search_end rnd a).
Proof.
  intros Rd E h L. destruct (C86_root_bracketed u rnd Hf prob fuel a b Rd E) as (tl & gl & (x & y & Hx & Hy & _ & Et) & _).
  rewrite Et. apply upto_mix; [lra|exact L].
Qed.

Lemma search_side (d : state) tout itask : taskc d = itask -> (itask = Normal -> toutc d = tout) ->
  search_end rnd d = tn (nlp d) /\ (itask = Normal -> upto (hh d) (tn (nlp d)) tout) \/
  itask = Normal /\ search_end rnd d = tout /\ upto (hh d) tout (tn (nlp d)).
Proof.
  intros G1 G2. unfold search_end, get_current_time, get_current_setp, upto. rewrite G1. destruct itask; [|left; split; [reflexivity|discriminate]].
  rewrite (G2 eq_refl). destruct (Rle_dec _ _) as [L|L]; [left|right].
  - split; [reflexivity|]. intros _. apply (pos_rnd u rnd Hf). apply Rleb_true. exact L.
  - split; [reflexivity|]. split; [reflexivity|].
    assert (C : (tout - tn (nlp d)) * hh d < 0).
    { apply (neg_rnd u rnd Hf). destruct (Rleb 0 _) eqn:Eb; [|reflexivity]. exfalso. apply L. apply Rleb_true in Eb. exact Eb. }
    lra.
Qed.

(** Between two calls, [tl] is the time returned last. *)
Definition ordered (st : state) (tl : R) : Prop :=
  (nst st = 0%nat -> tl = tn (nlp st)) /\
  (nst st <> 0%nat -> tretlast st = tl /\ upto (hh st) tl (tn (nlp st)) /\ upto (hh st) (tlo st) tl /\
     (tlo st = tl \/ Rabs (tn (nlp st) - tlo st) <= tol st)).

Section Call.
Variable st : state.
Hypothesis O : ordok st.
Hypothesis W : wft st.
Hypothesis Ds : D None st.
Variables (tout tl : R) (itask : task).
Hypothesis Hk : call_ready u st tout itask.
Hypothesis Hb : ordered st tl.
Hypothesis Ha : asks_ahead st tl tout itask.

(** Not behind the time returned last, up to the tolerance. *)
Definition nearly (h t : R) : Prop := upto h tl t \/ Rabs (t - tl) <= tol st.

Lemma nearly_up h t t' : h <> 0 -> nearly h t -> upto h t t' -> nearly h t'.
Proof.
  intros Hh [A|A] B; [left; exact (upto_trans _ _ _ _ A B)|].
  destruct (upto_total h tl t') as [C|C]; [left; exact C|right].
  destruct (upto_abs h t t' tl Hh B C) as (_ & X). rewrite (Rabs_minus_sym t' tl). rewrite (Rabs_minus_sym t tl) in A. lra.
Qed.

(** Inside the loop. *)
Definition inside (s : state) : Prop :=
  upto (hh s) tl (tn (nlp s)) /\ (nst st <> 0%nat -> 0 < hh s * hh st) /\
  upto (hh s) (tlo s) (tn (nlp s)) /\ nearly (hh s) (tlo s) /\ Rabs (tn (nlp s) - tlo s) <= tol s.

(** The end of a call: the time returned, and what is left behind. *)
Definition ended (s : state) (t : R) (r : result solve_status (err R)) : Prop :=
  nearly (hh s) t /\ (r <> Ok RootReturn -> upto (hh s) tl t) /\ upto (hh s) t (tn (nlp s)) /\
  (nst st <> 0%nat -> 0 < hh s * hh st) /\ (nst s = 0%nat -> t = tn (nlp s)) /\
  tretlast s = t /\ upto (hh s) (tlo s) t /\ (tlo s = t \/ Rabs (tn (nlp s) - tlo s) <= tol s).

Lemma at_end (s : state) : tlo s = tn (nlp s) -> upto (hh s) tl (tn (nlp s)) -> (nst st <> 0%nat -> 0 < hh s * hh st) -> inside s.
Proof.
  intros E A B. unfold inside. rewrite E. split; [exact A|]. split; [exact B|]. split; [apply upto_refl|]. split; [left; exact A|].
  unfold Rminus. rewrite Rplus_opp_r, Rabs_R0. apply tol_pos.
Qed.

(** ** The start of a later call *)
Section Later.
Hypothesis Hz : nst st <> 0%nat.

Lemma start_h : hh st <> 0.
Proof. destruct Ds as (_ & Y). apply (dl_h _ _ _ _ _ Y). left. exact Hz. Qed.

Lemma start_low : nearly (hh st) (tlo st).
Proof.
  destruct Hb as (_ & B). destruct (B Hz) as (_ & B2 & B3 & [->|B4]); [left; apply upto_refl|right].
  destruct (upto_abs _ _ _ _ start_h B3 B2) as (X & _). rewrite Rabs_minus_sym. lra.
Qed.

Lemma start_out : itask = Normal -> upto (hh st) tl tout.
Proof. intros Ei. exact (Ha Hz Ei). Qed.

Lemma later_order rfuel (a : state) tret x : pieces prob ewt_set st a -> still (task_set st tout itask) a ->
  shell prob (task_set st tout itask) a -> tretlast a = tretlast st -> tstop a = None -> nst a <> 0%nat -> (0 < nrtfn a)%nat ->
  later_call prob rfuel a tout tret itask = Ret x ->
  match x with inr (s, _) => inside s | inl (s, t, r) => match r with Ok _ => ended s t r | Err _ => True end end.
Proof.
  intros P Q S Er Ets Hza Hp E. destruct (tset_asked st tout itask) as (X1 & X2 & X3 & X4 & X5 & X6).
  assert (Et0 : tn (nlp (task_set st tout itask)) = tn (nlp st)) by (unfold task_set; destruct itask; reflexivity).
  assert (Eh0 : hh (task_set st tout itask) = hh st) by (unfold task_set; destruct itask; reflexivity).
  destruct Hb as (_ & B). destruct (B Hz) as (B1 & B2 & B3 & B4). clear B. pose proof start_h as Hh. pose proof start_low as Lw. pose proof start_out as So.
  assert (Sq : 0 < hh st * hh st) by (apply sq_pos; exact Hh).
  unfold later_call in E. apply bind_ret_inv in E. destruct E as (y & Ey & E). cbv beta in E.
  destruct (Nat.ltb_spec 0 (nrtfn a)) as [_|C]; [|lia].
  apply bind_ret_inv in Ey. destruct Ey as ((d & r) & E2 & Ey). cbv beta iota in Ey.
  destruct r as [[|]|e].
  - (* the root found again *)
    injection Ey as <-. injection E as <-. destruct (check2_asked _ _ _ _ E2) as (_ & Et & _).
    pose proof (r_check2_shell _ _ _ _ E2) as S2. destruct (shell_tnh prob _ _ (shell_trans _ _ _ _ S S2)) as (T1 & T2).
    rewrite Et0 in T1. rewrite Eh0 in T2. destruct (still_fields _ _ Q) as (F1 & _).
    assert (Ed : tlo d = tlo st) by congruence.
    assert (Nd : nst d = nst st) by (rewrite (shell_nst _ _ _ S2), (shell_nst _ _ _ S); exact X6).
    unfold ended. cbn [set_tretlast hh nlp nst tretlast tlo]. rewrite T1, T2, Ed, Nd. split; [exact Lw|]. split; [congruence|].
    split; [exact (upto_trans _ _ _ _ B3 B2)|]. split; [auto|]. split; [intros C; destruct (Hz C)|]. split; [reflexivity|].
    split; [apply upto_refl|left; reflexivity].
  - destruct (check2_ready u rnd Hf prob ewt_set Hl c Hts st O W Ds tout itask Hk a d P Q S Hza Hp E2) as (G1 & G2 & Rd & G3 & G4 & G5 & G6).
    rewrite Er, B1 in G6.
    pose proof (r_check2_shell _ _ _ _ E2) as S2.
    assert (Nd : nst d = nst st) by (rewrite (shell_nst _ _ _ S2), (shell_nst _ _ _ S); exact X6).
    assert (Td : tstop d = None).
    { assert (Pd : pieces prob ewt_set st d) by (eapply pieces_shell; [exact P|exact S2]).
      destruct (pieces_D u rnd Hf prob ewt_set Hl c Hts st d O Ds Pd) as (_ & Dd). apply (D_roots _ Dd). }
    (* the stop test *)
    assert (Fin : forall b x0, tn (nlp b) = tn (nlp d) -> hh b = hh d -> tretlast b = tretlast d -> nst b = nst d -> tstop b = None ->
      stop_test1 prob b tout tret itask = Ret x0 ->
      (upto (hh st) (tlo b) tl /\ Rabs (tn (nlp st) - tlo b) <= tol st /\ tlo b = tlo st \/ tlo b = search_end rnd d) ->
      (let '(st0, tret0, istate) := x0 in match istate with Ok ContinueSteps => Ret (inr (st0, tret0)) | _ => Ret (inl (st0, tret0, istate)) end)
        = Ret x ->
      match x with inr (s, _) => inside s | inl (s, t, r) => match r with Ok _ => ended s t r | Err _ => True end end).
    { intros b ((s1 & t1) & r1) A1 A2 A3 A4 A5 Es Lo Ex. cbv beta iota in Ex.
      destruct r1 as [q|e]; [|injection Ex as <-; exact I].
      destruct (still_fields _ _ (proj1 (still_stop1 _ _ _ _ _ _ _ _ Es))) as (F1 & _).
      destruct (stop1_none _ _ _ _ _ _ _ _ A5 Es) as (C1 & C2 & C3 & C4).
      rewrite A1, G4 in C1. rewrite A2, G5 in C2. rewrite A4, Nd in C3. rewrite A1, A3, G4, G6 in C4.
      assert (Tl : tol s1 = tol st) by (unfold exact_tol, get_current_time, get_current_setp; rewrite C1, C2; reflexivity).
      assert (Rt : reached_tout b tout = true -> upto (hh st) tout (tn (nlp st))).
      { intros V. unfold reached_tout in V. apply (pos_rnd u rnd Hf) in V. rewrite A1, A2, G4, G5 in V. exact V. }
      destruct C4 as [(-> & ->)|(Hq & C4 & C5)].
      - injection Ex as <-. destruct Lo as [(L1 & L2 & L3)|Lo].
        + unfold inside. rewrite C1, C2, F1, Tl, L3 in *. split; [exact B2|]. split; [auto|].
          split; [exact (upto_trans _ _ _ _ B3 B2)|]. split; [exact Lw|exact L2].
        + assert (Ed : search_end rnd d = tn (nlp d)).
          { apply (end_tn u rnd Hf d tout itask G1 G2). intros Ei.
            pose proof (stop_test1_shell _ _ _ _ _ _ _ _ Es) as [(_ & _ & _ & _ & Ez)|(C & _)]; [|congruence].
            specialize (Ez Ei). apply (neg_rnd u rnd Hf) in Ez. rewrite A1, A2 in Ez. exact Ez. }
          apply at_end; [rewrite F1, C1, Lo, Ed; exact G4| |]; rewrite C2, ?C1; auto.
      - assert (Ex' : x = inl (s1, t1, Ok q)) by (destruct q; congruence). subst x.
        assert (U1 : upto (hh st) tl t1).
        { destruct C5 as [(Ei & -> & _)|(_ & ->)]; [exact (So Ei)|exact B2]. }
        assert (U2 : upto (hh st) t1 (tn (nlp st))).
        { destruct C5 as [(Ei & -> & [V|V])|(_ & ->)]; [|exact (Rt V)|apply upto_refl]. apply Reqb_true in V. rewrite V. exact B2. }
        unfold ended. rewrite C1, C2, C3, F1, Tl. split; [left; exact U1|]. split; [intros _; exact U1|]. split; [exact U2|].
        split; [auto|]. split; [intros C; destruct (Hz C)|]. split; [exact C4|].
        destruct Lo as [(L1 & L2 & L3)|Lo].
        + split; [exact (upto_trans _ _ _ _ L1 U1)|right; exact L2].
        + assert (Et : tlo b = t1).
          { rewrite Lo. destruct (search_side d tout itask G1 G2) as [(V1 & V2)|(V1 & V2 & V3)].
            - rewrite V1, G4. destruct C5 as [(Ei & Et & _)|(_ & Et)]; [|congruence].
              specialize (V2 Ei). rewrite G4, G5 in V2. rewrite Et. apply (upto_anti (hh st)); [exact Hh|exact V2|]. rewrite <- Et. exact U2.
            - rewrite V2. destruct C5 as [(_ & Et & _)|(Ei & _)]; congruence. }
          rewrite Et. split; [apply upto_refl|left; reflexivity]. }
    destruct (root_ttol d <? sabs (tn (nlp d) - tretlast d))%sc eqn:Eb.
    + assert (Le : upto (hh st) (tlo d) (search_end rnd d) /\ upto (hh st) (search_end rnd d) (tn (nlp st))).
      { rewrite G3. destruct (search_side d tout itask G1 G2) as [(V1 & _)|(V1 & V2 & V3)].
        - rewrite V1, G4. split; [exact (upto_trans _ _ _ _ B3 B2)|apply upto_refl].
        - rewrite V2. rewrite G4, G5 in V3. split; [exact (upto_trans _ _ _ _ B3 (So V1))|exact V3]. }
      apply bind_ret_inv in Ey. destruct Ey as ((e & r) & E3 & Ey). cbv beta iota in Ey.
      pose proof (r_check3_shell _ _ _ _ _ E3) as S3. destruct (shell_tnh prob _ _ S3) as (T1 & T2). pose proof (shell_nst _ _ _ S3) as T3.
      destruct r.
      * injection Ey as <-. injection E as <-.
        destruct (found_between _ _ _ Rd E3 (hh st) (proj1 Le)) as (M1 & M2). rewrite G3 in M1.
        unfold ended. cbn [set_tretlast set_irfnd hh nlp nst tretlast tlo]. rewrite T1, T2, T3, G4, G5, Nd.
        split; [exact (nearly_up _ _ _ Hh Lw M1)|]. split; [congruence|]. split; [exact (upto_trans _ _ _ _ M2 (proj2 Le))|].
        split; [auto|]. split; [intros C; destruct (Hz C)|]. split; [reflexivity|]. split; [apply upto_refl|left; reflexivity].
      * destruct (check3_asked _ _ _ _ E3) as (_ & Er3). destruct (C86_no_root_missed u rnd Hf prob rfuel d e Rd E3) as (Et & _).
        assert (Cs : y = inr (set_irfnd false e) \/ itask = OneStep /\ exists f rf,
          get_solution prob (set_tretlast (tn (nlp e)) (set_irfnd false e)) (tn (nlp e)) = Ret (f, rf) /\ y = inl (f, tn (nlp f), Ok Success)).
        { clear - Ey. destruct itask; [left; injection Ey as <-; reflexivity|]. destruct (irfnd a); [|left; injection Ey as <-; reflexivity].
          right. split; [reflexivity|]. apply bind_ret_inv in Ey. destruct Ey as ((f & rf) & Eg & Ey). cbv beta iota in Ey.
          exists f, rf. split; [exact Eg|]. injection Ey as <-. reflexivity. }
        clear Ey. destruct Cs as [->|(Ei & f & rf & Eg & ->)].
        -- assert (Te : tstop (set_irfnd false e) = None).
           { assert (Pe : pieces prob ewt_set st e) by (eapply pieces_shell; [eapply pieces_shell; [exact P|exact S2]|exact S3]).
             destruct (pieces_D u rnd Hf prob ewt_set Hl c Hts st e O Ds Pe) as (_ & De). exact (proj1 (D_roots _ De)). }
           apply bind_ret_inv in E. destruct E as (x0 & Es & Ex).
           exact (Fin (set_irfnd false e) x0 T1 T2 Er3 T3 Te Es (or_intror Et) Ex).
        -- injection E as <-.
           destruct (gs_asked _ _ _ _ _ Eg) as (_ & F1 & F3). apply get_solution_shell in Eg. destruct (shell_tnh prob _ _ Eg) as (T4 & T5).
           pose proof (shell_nst _ _ _ Eg) as T6.
           assert (V1 : tretlast f = tn (nlp st)) by (rewrite F3; transitivity (tn (nlp e)); [reflexivity|congruence]).
           assert (V2 : tn (nlp f) = tn (nlp st)) by (rewrite T4; transitivity (tn (nlp e)); [reflexivity|congruence]).
           assert (V3 : hh f = hh st) by (rewrite T5; transitivity (hh e); [reflexivity|congruence]).
           assert (V4 : nst f = nst st) by (rewrite T6; transitivity (nst e); [reflexivity|congruence]).
           assert (V5 : tlo f = tn (nlp st)).
           { rewrite F1. transitivity (tlo e); [reflexivity|]. rewrite Et. rewrite (end_tn u rnd Hf d tout itask G1 G2); [exact G4|]. congruence. }
           unfold ended. rewrite V1, V2, V3, V4, V5. split; [left; exact B2|]. split; [intros _; exact B2|]. split; [apply upto_refl|].
           split; [auto|]. split; [intros C; destruct (Hz C)|]. split; [reflexivity|]. split; [apply upto_refl|left; reflexivity].
    + injection Ey as <-. apply bind_ret_inv in E. destruct E as (x0 & Es & Ex).
      apply (Fin d x0 eq_refl eq_refl eq_refl eq_refl Td Es); [|exact Ex]. left. rewrite G3. split; [exact B3|]. split; [|reflexivity].
      destruct B4 as [B4|B4]; [|exact B4]. apply skip_close in Eb. rewrite G4, G6 in Eb. rewrite B4.
      replace (tol st) with (tol d); [exact Eb|]. unfold exact_tol, get_current_time, get_current_setp. rewrite G4, G5. reflexivity.
  - injection Ey as <-. injection E as <-. exact I.
Qed.
End Later.

Lemma start_pieces l : ls_perf (lp (nlp (task_set st tout itask))) (nst (task_set st tout itask)) (nni (task_set st tout itask))
    (ncfn (task_set st tout itask)) false = Ret l ->
  shell prob (task_set st tout itask) (on_lp (fun _ => l) (task_set st tout itask)) ->
  exists a, a = on_lp (fun _ => l) (task_set st tout itask) /\ pieces prob ewt_set st a /\ still (task_set st tout itask) a /\
    shell prob (task_set st tout itask) a /\ tretlast a = tretlast st /\ tstop a = None /\ nst a = nst st /\ (0 < nrtfn a)%nat.
Proof.
  intros E1 S1. destruct (tset_asked st tout itask) as (X1 & X2 & X3 & X4 & X5 & X6).
  assert (P : pieces prob ewt_set st (on_lp (fun _ => l) (task_set st tout itask))).
  { eapply pieces_shell; [|exact S1]. apply piece1. apply p_shell. apply task_set_shell. }
  destruct (pieces_D u rnd Hf prob ewt_set Hl c Hts st _ O Ds P) as (_ & Da). destruct (D_roots _ Da) as (A1 & A2).
  eexists. split; [reflexivity|]. split; [exact P|]. split; [exact (still_perf prob _ _ _ E1)|]. split; [exact S1|].
  split; [exact X5|]. split; [exact A1|]. split; [exact X6|exact A2].
Qed.

Lemma enters_inside rfuel tret (s : state) : enters prob ewt_set rfuel st tout tret itask s -> inside s.
Proof.
  intros En. destruct (tset_asked st tout itask) as (X1 & X2 & X3 & X4 & X5 & X6).
  assert (Et0 : tn (nlp (task_set st tout itask)) = tn (nlp st)) by (unfold task_set; destruct itask; reflexivity).
  unfold enters in En.
  destruct (solve_start_cases _ _ _ _ _ _ _ _ En) as [(Hz & s0 & m & _ & C)|[(Hz & s0 & l & E1 & _ & _ & _ & Q)|(Hz & l & E1 & S1 & Q)]].
  - discriminate.
  - injection Q as ->. destruct (first_asked _ _ _ _ _ E1) as (_ & Et & En' & El). rewrite X6 in Hz.
    assert (Hp : (0 < nrtfn (task_set st tout itask))%nat) by (rewrite X4; apply (D_roots _ Ds)). specialize (El Hp).
    assert (V1 : tn (nlp (on_lp (fun _ => l) s0)) = tl) by (rewrite (proj1 Hb Hz), <- Et0; exact Et).
    apply at_end.
    + transitivity (tlo s0); [reflexivity|]. transitivity (tn (nlp s0)); [congruence|reflexivity].
    + rewrite V1. apply upto_refl.
    + intros C. destruct (C Hz).
  - destruct (start_pieces l E1 S1) as (a & Ea & P & Q0 & Sa & Er & Ts & Nz & Hp). rewrite <- Ea in Q. rewrite X6 in Hz.
    exact (later_order Hz rfuel a tret _ P Q0 Sa Er Ts ltac:(rewrite Nz; exact Hz) Hp Q).
Qed.

(** One step, and the search and the test after it. *)
Lemma step_order rfuel (s s1 s2 s' : state) tret nl v t r : head prob ewt_set tout itask st s -> PropReturnRnd.Inv tout itask s -> inside s ->
  pre_step prob ewt_set s tret nl = Ret (inr s1) -> step prob rfuel s1 = Ret (s2, Ok v) ->
  post_step prob rfuel s2 tout tret itask = Ret (s', t, r) ->
  r = Ok ContinueSteps /\ inside s' \/ r <> Ok ContinueSteps /\ ended s' t r.
Proof.
  intros Hd Is (J1 & J2 & J3 & J4 & _) Ep Es Ef.
  pose proof (head_step _ _ _ _ _ _ _ _ _ _ _ _ Hd Ep Es) as P2.
  pose proof (step_ok_nst _ _ _ _ _ Es) as Hz.
  pose proof (pre_step_shell _ _ _ _ _ _ Ep) as (S1 & _).
  pose proof (pieces_shell _ _ _ _ _ (hd_pieces _ _ _ _ _ _ Hd) S1) as P1.
  destruct (pieces_D u rnd Hf prob ewt_set Hl c Hts _ _ O Ds P1) as (O1 & D1).
  destruct (pieces_D u rnd Hf prob ewt_set Hl c Hts _ _ O Ds P2) as (_ & D2). destruct (D_roots _ D2) as (Ts & Hp).
  destruct (after_step u rnd Hf prob ewt_set Hl c Hts st O W Ds tout itask rfuel s s1 s2 tret nl v Hd Is Ep Es) as (G1 & G2 & _ & G4).
  specialize (G4 Hp).
  pose proof (still_pre _ _ _ _ _ _ Ep) as Q1. cbv beta iota in Q1.
  pose proof (still_step prob Hl _ _ _ _ O1 Es) as Q2.
  destruct (still_fields _ _ (still_trans _ _ _ Q1 Q2)) as (F1 & _).
  destruct (step_time_rnd u rnd Hf prob ewt_set Hl c Hts rfuel s1 s2 v O1 D1 (shell_limited _ _ _ S1 (hd_lim _ _ _ _ _ _ Hd))
    (shell_fresh _ _ _ _ S1 (hd_fresh _ _ _ _ _ _ Hd)) Es) as (h & _ & B2 & B3 & B4 & _).
  destruct (shell_tnh prob _ _ S1) as (E1 & E2). rewrite E1 in B2. rewrite E2 in B3.
  assert (Sg : 0 < hh s * hh s2).
  { clear - B3 B4. destruct (Rtotal_order h 0) as [L|[L|L]]; [|subst h; lra|].
    - assert (hh s2 < 0) by nra. assert (hh s < 0) by nra. nra.
    - assert (0 < hh s2) by nra. assert (0 < hh s) by nra. nra. }
  assert (Hh : hh s2 <> 0) by apply G4.
  assert (Up : upto (hh s2) (tn (nlp s)) (tn (nlp s2))).
  { apply (upto_sign h); [lra|]. exact B2. }
  apply (upto_sign _ _ _ _ Sg) in J1. apply (upto_sign _ _ _ _ Sg) in J3.
  assert (Lw : nearly (hh s2) (tlo s2)).
  { rewrite F1. destruct J4 as [J4|J4]; [left; exact (upto_sign _ _ _ _ Sg J4)|right; exact J4]. }
  assert (Dr : nst st <> 0%nat -> 0 < hh s2 * hh st).
  { intros C. specialize (J2 C). clear - Sg J2. destruct (Rtotal_order (hh s) 0) as [L|[L|L]]; [|rewrite L in *; lra|].
    - assert (hh s2 < 0) by nra. assert (hh st < 0) by nra. nra.
    - assert (0 < hh s2) by nra. assert (0 < hh st) by nra. nra. }
  assert (U : upto (hh s2) tl (tn (nlp s2))) by exact (upto_trans _ _ _ _ J1 Up).
  assert (To : itask = Normal -> upto (hh s2) (tn (nlp s)) tout).
  { intros Ei. apply (upto_sign _ _ _ _ Sg). assert (Hd' : head prob ewt_set tout Normal st s) by (rewrite <- Ei; exact Hd).
    pose proof (head_tout_rnd u rnd Hf prob ewt_set Hl c Hts st s tout O Ds Hd'). unfold upto. lra. }
  assert (Le : upto (hh s2) (tlo s2) (search_end rnd s2) /\ upto (hh s2) (search_end rnd s2) (tn (nlp s2))).
  { rewrite F1. destruct (search_side s2 tout itask G1 G2) as [(V1 & _)|(V1 & V2 & V3)].
    - rewrite V1. split; [exact (upto_trans _ _ _ _ J3 Up)|apply upto_refl].
    - rewrite V2. split; [exact (upto_trans _ _ _ _ J3 (To V1))|exact V3]. }
  unfold post_step in Ef. apply bind_ret_inv in Ef. destruct Ef as (y & Ey & Ef). cbv beta in Ef.
  destruct (Nat.ltb_spec 0 (nrtfn s2)) as [_|C]; [|lia].
  apply bind_ret_inv in Ey. destruct Ey as ((e & q) & E3 & Ey). cbv beta iota in Ey.
  pose proof (r_check3_shell _ _ _ _ _ E3) as S3. destruct (shell_tnh prob _ _ S3) as (T1 & T2). pose proof (shell_nst _ _ _ S3) as T3.
  destruct q.
  - injection Ey as <-. injection Ef as <- <- <-. right. split; [discriminate|].
    destruct (found_between _ _ _ G4 E3 (hh s2) (proj1 Le)) as (M1 & M2).
    unfold ended. cbn [set_tretlast set_irfnd hh nlp nst tretlast tlo]. rewrite T1, T2, T3.
    split; [exact (nearly_up _ _ _ Hh Lw M1)|]. split; [congruence|]. split; [exact (upto_trans _ _ _ _ M2 (proj2 Le))|].
    split; [exact Dr|]. split; [intros C; destruct (Hz C)|]. split; [reflexivity|]. split; [apply upto_refl|left; reflexivity].
  - injection Ey as <-. destruct (C86_no_root_missed u rnd Hf prob rfuel s2 e G4 E3) as (Et & _).
    assert (Te : tstop e = None).
    { assert (Pe : pieces prob ewt_set st e) by (eapply pieces_shell; [exact P2|exact S3]).
      destruct (pieces_D u rnd Hf prob ewt_set Hl c Hts st e O Ds Pe) as (_ & De). exact (proj1 (D_roots _ De)). }
    destruct (still_fields _ _ (proj1 (still_stop2 _ _ _ _ _ _ _ _ Ef))) as (F2 & _).
    destruct (stop2_none _ _ _ _ _ _ _ _ Te Ef) as (A1 & A2 & A3 & A4).
    rewrite T1 in A1. rewrite T2 in A2. rewrite T3 in A3. rewrite Et in F2. rewrite T1 in A4.
    assert (Rt : reached_tout e tout = true -> upto (hh s2) tout (tn (nlp s2))).
    { intros V. unfold reached_tout in V. apply (pos_rnd u rnd Hf) in V. rewrite T1, T2 in V. exact V. }
    destruct A4 as [(-> & _)|(-> & A5 & A6)].
    + left. split; [reflexivity|]. apply at_end.
      * rewrite F2, A1. apply (end_tn u rnd Hf s2 tout itask G1 G2). intros Ei.
        pose proof (stop_test2_shell _ _ _ _ _ _ _ _ Ef) as [(_ & _ & _ & _ & Ez)|(Cx & _)]; [|congruence].
        rewrite T1, T2 in Ez. exact (neg_rnd u rnd Hf _ _ Ez).
      * rewrite A1, A2. exact U.
      * rewrite A2. exact Dr.
    + right. split; [discriminate|].
      assert (U1 : upto (hh s2) tl t).
      { destruct A6 as [(Ei & -> & _)|(_ & ->)]; [exact (upto_trans _ _ _ _ J1 (To Ei))|exact U]. }
      assert (U2 : upto (hh s2) t (tn (nlp s2))).
      { destruct A6 as [(_ & -> & V)|(_ & ->)]; [exact (Rt V)|apply upto_refl]. }
      assert (Ee : tlo s' = t).
      { rewrite F2. destruct (search_side s2 tout itask G1 G2) as [(V1 & V2)|(V1 & V2 & V3)].
        - rewrite V1. destruct A6 as [(Ei & Ex & _)|(_ & Ex)]; [|congruence]. specialize (V2 Ei). rewrite Ex.
          apply (upto_anti (hh s2)); [exact Hh|exact V2|]. rewrite <- Ex. exact U2.
        - rewrite V2. destruct A6 as [(_ & Ex & _)|(Ei & _)]; congruence. }
      unfold ended. rewrite Ee, A1, A2, A3. split; [left; exact U1|]. split; [intros _; exact U1|]. split; [exact U2|].
      split; [exact Dr|]. split; [intros C; destruct (Hz C)|]. split; [exact A5|]. split; [apply upto_refl|left; reflexivity].
Qed.

Lemma loops_inside rfuel tret (s0 s : state) nl : enters prob ewt_set rfuel st tout tret itask s0 ->
  loops prob ewt_set rfuel tout itask tret s0 s nl -> inside s.
Proof.
  intros En Lo. pose proof (enters_head _ _ _ _ _ _ _ _ En) as Hd0.
  induction Lo as [|s nl s1 s2 v s' Lo IH Ep Es Ef].
  - exact (enters_inside _ _ _ En).
  - destruct (head_loop _ _ _ _ _ _ _ _ _ _ Hd0 Lo) as (Hd & _).
    pose proof (loops_inv u rnd Hf prob ewt_set Hl c Hts st O W Ds tout itask Hk rfuel tret s0 s nl En Lo) as Is.
    destruct (step_order _ _ _ _ _ _ _ _ _ _ Hd Is IH Ep Es Ef) as [(_ & X)|(C & _)]; [exact X|congruence].
Qed.

Lemma call_order fuel rfuel tret st' t r : solve prob ewt_set fuel rfuel st tout tret itask = Ret (st', t, r) -> goes_on r -> ended st' t r.
Proof.
  intros E Hgo. destruct (tset_asked st tout itask) as (X1 & X2 & X3 & X4 & X5 & X6).
  destruct (solve_run _ _ _ _ _ _ _ _ _ _ _ E) as [A|(s0 & s & nl & m & Ent & Lo & F)].
  - unfold answers in A.
    destruct (solve_start_cases _ _ _ _ _ _ _ _ A) as [(_ & s & m & X & C)|[(_ & s & l & _ & _ & _ & _ & C)|(Hz & l & E1 & S1 & Q)]]; try discriminate.
    { exfalso. injection C as <- <- ->. cbn in Hgo. injection Hgo as ->. exact (first_call_err _ _ _ _ _ _ X eq_refl). }
    destruct r as [q|e].
    + destruct (start_pieces l E1 S1) as (a & Ea & P & Q0 & Sa & Er & Ts & Nz & Hp). rewrite <- Ea in Q. rewrite X6 in Hz.
      exact (later_order Hz rfuel a tret _ P Q0 Sa Er Ts ltac:(rewrite Nz; exact Hz) Hp Q).
    + exfalso. cbn in Hgo. subst e.
      destruct (later_call_cases _ _ _ _ _ _ _ Q) as [(_ & y & e & X & Y)|[(_ & y & _ & _ & X)|[(_ & _ & _ & _ & y & y' & r' & _ & _ & X)|(y & y' & t' & r' & Y1 & Y2 & Y3 & Y4 & X)]]]; try discriminate.
      * injection Y as _ _ <-. apply r_check2_err in X. destruct X as (? & X). discriminate.
      * assert (Hr2 : r' = Err (EIda (IllegalIn TooMuchWork))) by (destruct r' as [[]|]; cbn in X; congruence).
        subst r'. exact (stop1_err _ _ _ _ _ _ _ _ Y4 eq_refl).
  - pose proof (loops_inside _ _ _ _ _ Ent Lo) as Js. pose proof (enters_head _ _ _ _ _ _ _ _ Ent) as Hd0.
    pose proof (loops_inv u rnd Hf prob ewt_set Hl c Hts st O W Ds tout itask Hk rfuel tret s0 s nl Ent Lo) as Is.
    destruct (head_loop _ _ _ _ _ _ _ _ _ _ Hd0 Lo) as (Hd & _).
    destruct F as [st' t r Ep|s1 s2 e st' t r Ep Es Ef|s1 s2 v st' t r Ep Es Ef Hr'].
    + assert (Q : st' = set_tretlast (tn (nlp s)) s /\ t = tn (nlp s)).
      { destruct (pre_step_cases _ _ _ _ _ _ Ep) as [(_ & X)|(_ & [(_ & _ & x & _ & _ & X)|(_ & [(_ & x & _ & _ & _ & X)|(_ & x & _ & _ & X)])])].
        - injection X as -> -> _. auto.
        - exfalso. injection X as _ _ ->. cbn in Hgo. congruence.
        - exfalso. injection X as _ _ ->. cbn in Hgo. congruence.
        - discriminate. }
      destruct Q as (-> & ->). destruct Js as (J1 & J2 & J3 & _ & J5).
      unfold ended. cbn [set_tretlast hh nlp nst tretlast tlo].
      split; [left; exact J1|]. split; [intros _; exact J1|]. split; [apply upto_refl|]. split; [exact J2|]. split; [reflexivity|].
      split; [reflexivity|]. split; [exact J3|]. right. exact J5.
    + exfalso. apply step_failed_shell in Ef. destruct Ef as (_ & Er & _).
      pose proof (pre_step_shell _ _ _ _ _ _ Ep) as (S1 & _).
      destruct (pieces_D u rnd Hf prob ewt_set Hl c Hts st s O Ds (hd_pieces _ _ _ _ _ _ Hd)) as (Os & _).
      subst r. cbn in Hgo. apply (step_err _ _ _ _ _ Hl (shell_ord _ _ _ S1 Os) Es). congruence.
    + destruct (step_order _ _ _ _ _ _ _ _ _ _ Hd Is Js Ep Es Ef) as [(C & _)|(_ & X)]; [congruence|exact X].
Qed.
End Call.

(** ** C90 *)
Lemma forward_ordered yy0 yp0 (st : state) tl : forward rnd prob ewt_set c yy0 yp0 st tl -> ordered st tl.
Proof.
  induction 1 as [st0 E0|st tl fuel rfuel tout tret itask st' t r Hw IH Ht Ha Hgo E].
  - split; [reflexivity|]. intros C. exfalso. apply C.
    unfold ida_new in E0. destruct (_ && _); [|discriminate]. apply ret_inj in E0. subst st0. reflexivity.
  - destruct (forward_well u rnd Hf prob ewt_set Hl c Hc Ht0 Hts yy0 yp0 st tl Hw) as (Hr & G).
    pose proof (reach_ord prob ewt_set Hl c yy0 yp0 st Hc Hr) as O.
    pose proof (reach_wf prob ewt_set Hl Qt (any_preserved prob (fun _ _ => True) (fun _ _ => I)) c yy0 yp0 st Hc I Hr) as W.
    pose proof (reach_D u rnd Hg prob ewt_set Hl c Hc Ht0 Hts yy0 yp0 st Hr) as Ds.
    assert (Hk : call_ready u st tout itask).
    { apply (well_ready u rnd Hf); [destruct G as [(G & _)|G]; auto|exact Ht|].
      intros Hz. destruct G as [(_ & G)|G]; [|destruct (Hz G)]. rewrite G. exact (Ha Hz). }
    destruct (call_order st O W Ds tout tl itask Hk IH Ha fuel rfuel tret st' t r E Hgo) as (_ & _ & A & _ & B & C & F & G').
    split; [exact B|]. intros _. auto.
Qed.

(** The next call: the time it returns is not ahead of the internal time; it is not
    behind the time returned before, unless it is a root, which may be behind by at
    most 100 unit roundoffs of the time and step found by the call, up to six
    roundings; the direction is that of the calls before. *)
Theorem C90_root_times_go_on yy0 yp0 (st : state) tl fuel rfuel tout tret itask st' t r :
  forward rnd prob ewt_set c yy0 yp0 st tl -> not_tiny st -> asks_ahead st tl tout itask ->
  solve prob ewt_set fuel rfuel st tout tret itask = Ret (st', t, r) -> goes_on r ->
  0 <= (get_current_time st' - t) * get_current_setp st' /\
  (r <> Ok RootReturn -> 0 <= (t - tl) * get_current_setp st') /\
  (0 <= (t - tl) * get_current_setp st' \/ Rabs (t - tl) <= exact_tol st * (1 + 6 * u)) /\
  (get_num_steps st <> 0%nat -> 0 < get_current_setp st' * get_current_setp st).
Proof.
  intros Hw Ht Ha E Hgo.
  destruct (forward_well u rnd Hf prob ewt_set Hl c Hc Ht0 Hts yy0 yp0 st tl Hw) as (Hr & G).
  pose proof (reach_ord prob ewt_set Hl c yy0 yp0 st Hc Hr) as O.
  pose proof (reach_wf prob ewt_set Hl Qt (any_preserved prob (fun _ _ => True) (fun _ _ => I)) c yy0 yp0 st Hc I Hr) as W.
  pose proof (reach_D u rnd Hg prob ewt_set Hl c Hc Ht0 Hts yy0 yp0 st Hr) as Ds.
  assert (Hk : call_ready u st tout itask).
  { apply (well_ready u rnd Hf); [destruct G as [(G & _)|G]; auto|exact Ht|].
    intros Hz. destruct G as [(_ & G)|G]; [|destruct (Hz G)]. rewrite G. exact (Ha Hz). }
  destruct (call_order st O W Ds tout tl itask Hk (forward_ordered _ _ _ _ Hw) Ha fuel rfuel tret st' t r E Hgo) as (A & B & C & F & _).
  split; [exact C|]. split; [exact B|]. split; [exact A|exact F].
Qed.
End Rnd.

Print Assumptions C90_root_times_go_on.

(** ** The hypotheses can be met *)
Require Import Verif.Script Verif.ExampleR Verif.PropRoots Verif.ExampleRoot.
Open Scope R_scope.

Local Instance NLS_P : NLSolver R (script R) := ScriptNLS [].

(** The second call of a life with a root function. *)
Example C90_root_times_go_on_hypotheses_met : exists (st : ida R (list nat) (script R)) tl rfuel st' t, let rnd := fun x : R => x in
  f64_like (/ 9007199254740992) rnd /\ nls_lawful (T := R) (NSt := script R) /\ config_ok configQ /\
  rnd (g_t0 configQ) = g_t0 configQ /\ g_tstop configQ = None /\ (0 < num_roots (rootR above))%nat /\
  @forward rnd (list nat) (script R) _ _ (rootR above) ewtR configQ [0] [1] st tl /\
  get_num_steps st <> 0%nat /\ not_tiny st /\ asks_ahead st tl 1 OneStep /\ asks_ahead st tl 1 Normal /\
  @solve R (list nat) (script R) (ScalarRnd rnd) _ _ (rootR above) ewtR 600 rfuel st 1 0 OneStep = Ret (st', t, Ok Success).
Proof.
  destruct above_run as (f & f' & st & st1 & st2 & t1 & t2 & s2 & s3 & Hr0 & (st0 & E0 & Est) & E1 & Hr & Se & E2 & _). subst st.
  exists st1, t1, f', st2, t2. cbv zeta. split; [exact id_f64_like|]. split; [exact (script_lawful [])|]. split; [exact configQ_ok|].
  split; [reflexivity|]. split; [reflexivity|]. split; [cbn; lia|].
  assert (Z0 : nst (configure configQ st0) = 0%nat) by exact (su_nst _ (fresh_startable above _ E0)).
  split.
  { eapply (fw_call (fun x => x)).
    5: exact E1. 4: exact I.
    - apply fw_new. exact E0.
    - intros C. destruct (C Z0).
    - intros C. destruct (C Z0). }
  pose proof (se_nst _ _ Se) as N. unfold get_num_steps. rewrite N. split; [discriminate|].
  pose proof (se_hh _ _ Se) as Hh. pose proof (se_tn _ _ Se) as Tn.
  split; [|split; [|split; [|exact E2]]].
  - intros _. unfold get_current_time, get_current_setp. rewrite Tn, !Rabs_pos_eq by lra. lra.
  - intros _ C. discriminate.
  - intros _ _. unfold get_current_setp.
    destruct (C46_one_step (rootR above) ewtR (script_lawful []) configQ [0] [1] _ _ _ _ _ _ _ configQ_ok Hr0 E1) as (Et & _).
    rewrite Et, Tn. nra.
Qed.

(** A first call that returns a root. *)
Example C90_root_found_hypotheses_met : exists (st : ida R (list nat) (script R)) rfuel st' t, let rnd := fun x : R => x in
  (0 < num_roots (rootR cross))%nat /\
  @forward rnd (list nat) (script R) _ _ (rootR cross) ewtR configQ [0] [1] st (g_t0 configQ) /\ not_tiny st /\
  asks_ahead st (g_t0 configQ) 1 Normal /\
  @solve R (list nat) (script R) (ScalarRnd rnd) _ _ (rootR cross) ewtR 600 rfuel st 1 0 Normal = Ret (st', t, Ok RootReturn).
Proof.
  destruct cross_run as (f & st & st' & t & s & s2 & s3 & _ & (st0 & En & ->) & E & _).
  assert (Z0 : nst (configure configQ st0) = 0%nat) by exact (su_nst _ (fresh_startable cross _ En)).
  exists (configure configQ st0), f, st', t. cbv zeta. split; [cbn; lia|]. split; [apply fw_new; exact En|].
  split; [intros C; destruct (C Z0)|]. split; [intros C; destruct (C Z0)|exact E].
Qed.
