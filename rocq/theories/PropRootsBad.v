(** * PropRootsBad: what the root search does not guarantee (C58-C60, C62),
      executions on binary64 *)
Require Import List Arith Bool Lia Floats.
Import ListNotations.
Require Import Verif.Base Verif.Scalar Verif.ScalarF Verif.Dense Verif.Norms Verif.Newton Verif.NewtonSpec Verif.IdaState
  Verif.IdaNls Verif.IdaCore Verif.IdaRoots Verif.IdaSolve Verif.IdaIo Verif.BaseFacts Verif.NewtonFacts
  Verif.IdaFacts Verif.IdaLoops Verif.IdaStep Verif.IdaSpec Verif.IdaShell Verif.IdaReach Verif.IdaInterp Verif.Witness.
Set Warnings "-inexact-float".
Open Scope nat_scope.

(** ** One pass of the search without sign change and without zero *)
Section Iter.
Context {T LSt NSt : Type} `{Scalar T} `{LSolver T LSt} `{NLSolver T NSt}.
Variable prob : problem T.
Notation nr := (num_roots prob).
Notation state := (ida T LSt NSt).

(** What the search looks at. *)
Record seen (st : state) (lo hi tol : T) (gl gh : list T) (ga : list bool) (rd : list nat) : Prop := mkseen {
  sn_arr : arrays st;
  sn_k : kused st <= 5;
  sn_lo : tlo st = lo;
  sn_hi : thi st = hi;
  sn_tol : ttol st = tol;
  sn_gl : glo st = gl;
  sn_gh : ghi st = gh;
  sn_ga : gactive st = ga;
  sn_rd : rootdir st = rd }.

Lemma root_iter fuel (st : state) lo hi tol gl gh ga rd alph sp side imax glm ghm g mf im :
  seen st lo hi tol gl gh ga rd ->
  (sabs (hi - lo) <=? tol)%sc = false ->
  aget gh imax = Ret ghm -> aget gl imax = Ret glm ->
  (forall y yp, vtab nr (p_root prob (next_tmid lo hi tol (next_alph alph sp side) glm ghm) y yp) = g) ->
  @scan2 T _ prob ga rd gl g imax = (false, false, mf, im) ->
  (sabs (hi - next_tmid lo hi tol (next_alph alph sp side) glm ghm) <=? tol)%sc = false ->
  exists st', root_loop prob (S fuel) st alph sp side imax =
      root_loop prob fuel st' (next_alph alph sp side) (Some side) 2 im /\
    seen st' (next_tmid lo hi tol (next_alph alph sp side) glm ghm) hi tol g gh ga rd.
Proof.
  intros [A K L1 L2 L3 L4 L5 L6 L7] C1 Eh El Hg Hs C2. cbn [root_loop].
  rewrite L1, L2, L3, C1, L5, Eh, L4, El. cbn [bind]. set (tm := next_tmid _ _ _ _ _ _) in *.
  destruct (gs_ret prob st tm A K) as (s & Es). rewrite Es. cbn [bind].
  pose proof (get_solution_shell prob _ _ _ _ Es) as Sh.
  pose proof (get_solution_frame _ _ _ _ _ Es) as (_ & _ & Fr & _).
  apply rootst_fields in Fr.
  destruct Fr as (F1 & F2 & F3 & F4 & F5 & F6 & F7 & F8 & F9 & F10 & F11 & F12 & F13).
  assert (Cs : arrays s /\ kused s = kused st /\ rootdir s = rootdir st).
  { pose proof (core_fields _ _ (sh_core _ _ _ Sh)) as C. pose proof (sh_cvals _ _ _ Sh). pose proof (sh_dvals _ _ _ Sh).
    destruct C as (C0 & D1 & D2 & D3 & D4 & D5 & D6 & _ & D7 & _). unfold cfg in C0. injection C0. intros. unfold arrays in *.
    rewrite D1, D2, D3, D4, D5, D6, D7. repeat split; try tauto; destruct A as (_ & _ & _ & _ & _ & _ & A7 & A8); congruence. }
  destruct Cs as (As & Ks & Rs). unfold call_root. cbv beta iota zeta.
  set (s1 := on_lp (push_ev (CRoot tm (yy (nlp s)) (yp (nlp s)))) s).
  rewrite Hg.
  change (gactive (set_nge (nge s1 + 1) (set_grout g s1))) with (gactive s).
  change (rootdir (set_nge (nge s1 + 1) (set_grout g s1))) with (rootdir s).
  change (glo (set_nge (nge s1 + 1) (set_grout g s1))) with (glo s).
  change (grout (set_nge (nge s1 + 1) (set_grout g s1))) with g.
  assert (Q1 : gactive s = ga) by congruence.
  assert (Q2 : glo s = gl) by congruence.
  rewrite Q1, Rs, L7, Q2, Hs.
  set (s2 := set_glo g (set_tlo tm (set_nge (nge s1 + 1) (set_grout g s1)))).
  change (thi s2) with (thi s). change (tlo s2) with tm. change (ttol s2) with (ttol s).
  assert (Q3 : thi s = hi) by congruence. assert (Q4 : ttol s = tol) by congruence.
  rewrite Q3, Q4, C2. exists s2. split; [reflexivity|].
  split; try reflexivity; try assumption.
  - change (kused s2) with (kused s). lia.
  - change (ghi s2) with (ghi s). congruence.
  - change (rootdir s2) with (rootdir s). congruence.
Qed.

(** r_check3 does not return if the search does not. *)
Lemma check3_diverges fuel (st : state) lo hi tol gl gh ga rd z m im :
  arrays st -> kused st <= 5 ->
  match taskc st with
  | OneStep => tn (nlp st)
  | Normal => if (szero <=? (toutc st - tn (nlp st)) * hh st)%sc then tn (nlp st) else toutc st
  end = hi ->
  (forall y yp, vtab nr (p_root prob hi y yp) = gh) ->
  root_ttol st = tol -> tlo st = lo -> glo st = gl -> gactive st = ga -> rootdir st = rd ->
  @scan1 T _ prob ga rd gl gh = (z, true, m, im) ->
  (forall s, seen s lo hi tol gl gh ga rd -> root_loop prob fuel s sone None 0 im = Diverge) ->
  r_check3 prob fuel st = Diverge.
Proof.
  intros A K Eh Hg Et Elo Egl Ega Erd Hs Hloop. unfold r_check3. rewrite Eh. set (a := set_thi hi st).
  change (thi a) with hi.
  destruct (gs_ret prob a hi A K) as (s & Es). rewrite Es. cbn [bind].
  pose proof (get_solution_shell prob _ _ _ _ Es) as Sh.
  pose proof (get_solution_frame _ _ _ _ _ Es) as (_ & _ & Fr & _ & Fn).
  apply rootst_fields in Fr.
  destruct Fr as (F1 & F2 & F3 & F4 & F5 & F6 & F7 & F8 & F9 & F10 & F11 & F12 & F13).
  assert (Cs : arrays s /\ kused s = kused a /\ rootdir s = rootdir a /\ hh s = hh a).
  { pose proof (core_fields _ _ (sh_core _ _ _ Sh)) as C. pose proof (sh_cvals _ _ _ Sh). pose proof (sh_dvals _ _ _ Sh).
    destruct C as (C0 & D1 & D2 & D3 & D4 & D5 & D6 & D8 & D7 & D9). unfold cfg in C0. injection C0. intros. unfold arrays in *.
    assert (hh s = hh a) by tauto.
    rewrite D1, D2, D3, D4, D5, D6, D7. repeat split; try tauto; destruct A as (_ & _ & _ & _ & _ & _ & A7 & A8);
    change (cvals a) with (cvals st) in *; change (dvals a) with (dvals st) in *; congruence. }
  destruct Cs as (As & Ks & Rs & Hh). unfold call_root. cbv beta iota zeta.
  change (thi s) with (thi s). assert (Q0 : thi s = hi) by (rewrite F3; reflexivity). rewrite Q0.
  set (s1 := on_lp (push_ev (CRoot hi (yy (nlp s)) (yp (nlp s)))) s). rewrite Hg.
  set (s2 := set_nge (nge s1 + 1) (set_ghi gh s1)).
  assert (Et2 : root_ttol s2 = tol).
  { unfold root_ttol. change (tn (nlp s2)) with (tn (nlp s)). change (hh s2) with (hh s). rewrite Hh.
    replace (tn (nlp s)) with (tn (nlp a)) by (unfold nlprest in Fn; injection Fn; intros; congruence). exact Et. }
  rewrite Et2. set (s3 := set_ttol tol s2).
  assert (Se : seen s3 lo hi tol gl gh ga rd).
  { split; try reflexivity; try assumption.
    - change (kused s3) with (kused s). rewrite Ks. exact K.
    - change (tlo s3) with (tlo s). rewrite F2. exact Elo.
    - change (glo s3) with (glo s). rewrite F5. exact Egl.
    - change (gactive s3) with (gactive s). rewrite F13. exact Ega.
    - change (rootdir s3) with (rootdir s). rewrite Rs. exact Erd. }
  unfold root_find. destruct Se as [S1 S2 S3 S4 S5 S6 S7 S8 S9] eqn:EE. rewrite S8, S9, S6, S7, Hs. cbn [negb].
  rewrite (Hloop s3 Se). reflexivity.
Qed.

Lemma solve_diverges ewt_set fuel rfuel (st : state) tout tret itask :
  nst st <> 0 -> 0 < nrtfn st -> irfnd st = false ->
  (root_ttol st <? sabs (tn (nlp st) - tretlast st))%sc = true ->
  (forall l, r_check3 prob rfuel (on_lp (fun _ => l)
     (set_taskc itask (match itask with Normal => set_toutc tout st | OneStep => st end))) = Diverge) ->
  solve prob ewt_set fuel rfuel st tout tret itask = Diverge.
Proof.
  intros Hn Hr Hf Ht Hd. unfold solve. set (a := set_taskc itask _).
  assert (Ea : nst a = nst st /\ nrtfn a = nrtfn st /\ irfnd a = irfnd st /\ root_ttol a = root_ttol st /\
    tn (nlp a) = tn (nlp st) /\ tretlast a = tretlast st) by (destruct itask; repeat split; reflexivity).
  destruct Ea as (E1 & E2 & E3 & E4 & E5 & E6). rewrite E1. destruct (nst st =? 0) eqn:En; [apply Nat.eqb_eq in En; contradiction|].
  cbn [bind]. unfold ls_perf. cbn [negb bind]. set (l := set_nwarn 0 _). set (b := on_lp (fun _ => l) a).
  change (nst b) with (nst a). rewrite E1. replace (0 <? nst st) with true by (symmetry; apply Nat.ltb_lt; lia).
  unfold later_call. change (nrtfn b) with (nrtfn a). rewrite E2. replace (0 <? nrtfn st) with true by (symmetry; apply Nat.ltb_lt; lia).
  unfold r_check2. change (irfnd b) with (irfnd a). rewrite E3, Hf. cbn [negb bind].
  change (root_ttol b) with (root_ttol a). change (tn (nlp b)) with (tn (nlp a)). change (tretlast b) with (tretlast a).
  rewrite E4, E5, E6, Ht. unfold b, a. rewrite Hd. reflexivity.
Qed.
End Iter.

(** ** Executions on binary64 *)
Open Scope float_scope.

(** y' = -y, y(0) = 1, with one root function. *)
Definition decay (g : float -> list float -> list float -> nat -> float) : problem float :=
  mkproblem 1 1 (fun _ y yp _ => vget yp 0 + vget y 0) (fun _ cj _ _ _ _ _ => 1 + cj) g.
Definition decay_ewt : list float -> list float := ewt_set_ss 1e-4 1e-6.
Definition decay_conf (p : problem float) := default_config p.

(** C58: a root function which is not a number strictly between 1 and 1.1. *)
Definition gap (t : float) (_ _ : list float) (_ : nat) : float :=
  if t <=? 1 then -1 else if 1.1 <=? t then 1 else nan.

Definition view (st : fstate) :=
  ((tlo st, glo st, gactive st, rootdir st), (tn (nlp st), hh st, tretlast st, irfnd st),
   (nrtfn st, nst st, kused st),
   (length (phi st), length (psi st), length (alpha st), length (beta st), length (sigma st),
    length (gamma st), length (cvals st), length (dvals st)))%nat.

(** The values a function takes after the life of an object. *)
Definition after {A} (prob : problem float) (ew : list float -> list float) (c : config) (yy0 yp0 : list float)
    (cs : list call) (v : fstate -> list (@reply float) -> A) : option A :=
  match ida_new prob yy0 yp0 with
  | Ret st => match run_calls prob ew 600 100 (configure c st) cs with
              | Some (st, rs) => Some (v st rs)
              | None => None
              end
  | _ => None
  end.

Lemma after_reach {A} prob ew c yy0 yp0 cs (v : fstate -> list (@reply float) -> A) x :
  after prob ew c yy0 yp0 cs v = Some x ->
  exists st0 st rs, ida_new prob yy0 yp0 = Ret st0 /\ run_calls prob ew 600 100 (configure c st0) cs = Some (st, rs) /\
    reach prob ew c yy0 yp0 st /\ v st rs = x.
Proof.
  unfold after. destruct (ida_new prob yy0 yp0) as [st0| |] eqn:E0; try discriminate.
  destruct (run_calls prob ew 600 100 (configure c st0) cs) as [(st & rs)|] eqn:Er; [|discriminate].
  intros E. injection E as E. exists st0, st, rs. split; [reflexivity|]. split; [exact Er|]. split; [|exact E].
  eapply run_reach; [|exact Er]. constructor. exact E0.
Qed.

Definition gap_tn : float := 1.1624857599999998.
Definition gap_hh : float := 0.16754688000000001.
Definition gap_tol : float := (abs gap_tn + abs gap_hh) * seps * shundred.

Definition gap_values := ((1, [-1], [true], [0%nat]), (gap_tn, gap_hh, 1, false), (1, 26, 4)%nat, (6, 6, 6, 6, 6, 6, 6, 5)%nat).
Lemma gap_view : after (decay gap) decay_ewt (decay_conf (decay gap)) [1] [-1] [CallSolve 1 0 Normal] (fun st _ => view st) =
  Some gap_values.
Proof. vm_compute. reflexivity. Qed.

(** The weights of the search are powers of two, and infinity afterwards. *)
Fixpoint pw (k : nat) : float := match k with O => 1 | S k => pw k * 2 end.
Definition gap_mid (a : float) : float := next_tmid nan gap_tn gap_tol a nan 1.

Lemma pw_inf k : pw (1025 + k) = infinity.
Proof. induction k as [|k IH]; [vm_compute; reflexivity|]. rewrite Nat.add_succ_r. cbn [pw]. rewrite IH. reflexivity. Qed.

Lemma gap_mids : map (fun k => gap_mid (pw k)) (seq 0 1026) = repeat nan 1026.
Proof. vm_compute. reflexivity. Qed.

Lemma gap_mid_nan k : gap_mid (pw k) = nan.
Proof.
  assert (Hs : forall k, (k < 1026)%nat -> gap_mid (pw k) = nan).
  { intros j Hj. replace (gap_mid (pw j)) with (nth j (map (fun k => gap_mid (pw k)) (seq 0 1026)) (gap_mid (pw 0))).
    - rewrite gap_mids. apply (repeat_spec 1026). apply nth_In. rewrite repeat_length. exact Hj.
    - rewrite (map_nth (fun k => gap_mid (pw k)) (seq 0 1026) 0%nat j), seq_nth by exact Hj. reflexivity. }
  destruct (Nat.lt_ge_cases k 1026) as [L|L]; [exact (Hs k L)|].
  replace k with (1025 + (k - 1025))%nat by lia. rewrite pw_inf, <- (pw_inf 0). apply Hs. lia.
Qed.

Lemma gap_at t v : gap t [] [] 0%nat = v -> forall y yp, vtab (num_roots (decay gap)) (p_root (decay gap) t y yp) = [v].
Proof. intros E y yp. cbn. f_equal. exact E. Qed.

Lemma gap_stuck fuel : forall k (st : fstate), seen st nan gap_tn gap_tol [nan] [1] [true] [0%nat] ->
  root_loop (decay gap) fuel st (pw k) (Some 2%nat) 2 0 = Diverge.
Proof.
  induction fuel as [|fuel IH]; intros k st Hs; [reflexivity|].
  assert (Ea : next_alph (pw k) (Some 2%nat) 2 = pw (S k)) by reflexivity.
  pose proof (gap_mid_nan (S k)) as Em. unfold gap_mid in Em.
  destruct (root_iter (decay gap) fuel st _ _ _ _ _ _ _ (pw k) (Some 2%nat) 2 0 nan 1 [nan] 0 0%nat Hs) as (st' & E1 & Hs').
  - vm_compute. reflexivity.
  - reflexivity.
  - reflexivity.
  - rewrite Ea, Em. apply gap_at. reflexivity.
  - vm_compute. reflexivity.
  - rewrite Ea, Em. vm_compute. reflexivity.
  - rewrite E1, Ea. apply IH. rewrite Ea, Em in Hs'. exact Hs'.
Qed.

Lemma gap_search fuel (st : fstate) : seen st 1 gap_tn gap_tol [-1] [1] [true] [0%nat] ->
  root_loop (decay gap) fuel st sone None 0 0 = Diverge.
Proof.
  intros Hs. destruct fuel as [|fuel]; [reflexivity|].
  set (m := next_tmid 1 gap_tn gap_tol 1 (-1) 1).
  assert (Em : next_tmid 1 gap_tn gap_tol (next_alph sone None 0) (-1) 1 = m) by reflexivity.
  destruct (root_iter (decay gap) fuel st _ _ _ _ _ _ _ sone None 0 0 (-1) 1 [nan] 0 0%nat Hs) as (s1 & E1 & H1).
  - vm_compute. reflexivity.
  - reflexivity.
  - reflexivity.
  - rewrite Em. apply gap_at. vm_compute. reflexivity.
  - vm_compute. reflexivity.
  - rewrite Em. vm_compute. reflexivity.
  - rewrite E1. rewrite Em in H1. destruct fuel as [|fuel]; [reflexivity|].
    assert (Em2 : next_tmid m gap_tn gap_tol (next_alph (next_alph sone None 0) (Some 0%nat) 2) nan 1 = nan) by (vm_compute; reflexivity).
    destruct (root_iter (decay gap) fuel s1 _ _ _ _ _ _ _ (next_alph sone None 0) (Some 0%nat) 2 0 nan 1 [nan] 0 0%nat H1) as (s2 & E2 & H2).
    + vm_compute. reflexivity.
    + reflexivity.
    + reflexivity.
    + rewrite Em2. apply gap_at. reflexivity.
    + vm_compute. reflexivity.
    + rewrite Em2. vm_compute. reflexivity.
    + rewrite E2. rewrite Em2 in H2. exact (gap_stuck fuel 0 s2 H2).
Qed.


Lemma gap_second (st : fstate) : view st = gap_values -> forall fuel rfuel tret,
  solve (decay gap) decay_ewt fuel rfuel st 2 tret Normal = Diverge.
Proof.
  unfold view, gap_values. intros V.
    injection V as V1 V2 V3 V4 V5 V6 V7 V8 V9 V10 V11 V12 V13 V14 V15 V16 V17 V18 V19.
    intros fuel rfuel tret. apply solve_diverges; [lia|lia|exact V8| |].
    + unfold root_ttol. rewrite V5, V6, V7. vm_compute. reflexivity.
    + intros l. set (a := on_lp _ _).
      apply (check3_diverges (decay gap) rfuel a 1 gap_tn gap_tol [-1] [1] [true] [0%nat] false 0.5 0).
      * unfold a, arrays. cbn. tauto.
      * change (kused a) with (kused st). lia.
      * change (taskc a) with Normal. change (toutc a) with 2. change (tn (nlp a)) with (tn (nlp st)). change (hh a) with (hh st).
        rewrite V5, V6. vm_compute. reflexivity.
      * apply gap_at. vm_compute. reflexivity.
      * unfold root_ttol. change (tn (nlp a)) with (tn (nlp st)). change (hh a) with (hh st). rewrite V5, V6. reflexivity.
      * exact V1.
      * exact V2.
      * exact V3.
      * exact V4.
      * vm_compute. reflexivity.
      * intros s Hs. exact (gap_search rfuel s Hs).
Qed.

Lemma gap_reached : exists st, reach (decay gap) decay_ewt (decay_conf (decay gap)) [1] [-1] st /\ view st = gap_values.
Proof.
  destruct (after_reach _ _ _ _ _ _ _ _ gap_view) as (_ & st & _ & _ & _ & Hr & Hv). exists st. split; [exact Hr|exact Hv].
Qed.

(** C58 fails: the first call returns at t = 1; the second call, to t = 2, never
    returns, whatever number of passes it is given. *)
Theorem C58_refuted : exists (prob : problem float) ewt_set c yy0 yp0 (st : fstate),
  reach prob ewt_set c yy0 yp0 st /\
  forall fuel rfuel tret, solve prob ewt_set fuel rfuel st 2 tret Normal = Diverge.
Proof.
  destruct gap_reached as (st & Hr & Hv).
  exists (decay gap), decay_ewt, (decay_conf (decay gap)), [1], [-1], st. split; [exact Hr|]. intros. apply gap_second. exact Hv.
Qed.
Print Assumptions C58_refuted.

Lemma run_two prob ew (st st2 : fstate) a b k a' b' k' t r t' r' :
  run_calls prob ew 600 100 st [CallSolve a b k; CallSolve a' b' k'] = Some (st2, [ReplySolve t r; ReplySolve t' r']) ->
  exists st1, solve prob ew 600 100 st a b k = Ret (st1, t, r) /\ solve prob ew 600 100 st1 a' b' k' = Ret (st2, t', r').
Proof.
  cbn [run_calls api_call]. destruct (solve prob ew 600 100 st a b k) as [((s1 & t1) & r1)| |]; cbn [bind]; try discriminate.
  destruct (solve prob ew 600 100 s1 a' b' k') as [((s2 & t2) & r2)| |] eqn:E; cbn [bind]; try discriminate.
  intros X. injection X as -> -> -> -> ->. exists s1. split; [reflexivity|exact E].
Qed.

Lemma run_one prob ew (st st2 : fstate) a b k t r :
  run_calls prob ew 600 100 st [CallSolve a b k] = Some (st2, [ReplySolve t r]) ->
  solve prob ew 600 100 st a b k = Ret (st2, t, r).
Proof.
  cbn [run_calls api_call]. destruct (solve prob ew 600 100 st a b k) as [((s1 & t1) & r1)| |]; cbn [bind]; try discriminate.
  intros X. injection X as -> -> ->. reflexivity.
Qed.

(** C59 fails: g = t - 1e-5 is negative at t0 = 0 and positive after the first
    step, but neither that step nor the call to t = 1 reports a root. *)
Definition early : problem float := decay (fun t _ _ _ => t - 1e-5).
Definition early_t1 : float := 5.05e-5.

Lemma early_life : after early decay_ewt (decay_conf early) [1] [-1] [CallSolve 1 0 OneStep; CallSolve 1 0 Normal] (fun st rs => rs) =
  Some [ReplySolve early_t1 (Ok Success); ReplySolve 1 (Ok Success)].
Proof. vm_compute. reflexivity. Qed.

Lemma early_step : after early decay_ewt (decay_conf early) [1] [-1] [CallSolve 1 0 OneStep] (fun st rs => (rs, length (steps (trace (lp (nlp st)))))) =
  Some ([ReplySolve early_t1 (Ok Success)], 1%nat).
Proof. vm_compute. reflexivity. Qed.

Theorem C59_refuted : exists (prob : problem float) ewt_set c yy0 yp0 (st0 st1 st2 : fstate) t1,
  ida_new prob yy0 yp0 = Ret st0 /\
  solve prob ewt_set 600 100 (configure c st0) 1 0 OneStep = Ret (st1, t1, Ok Success) /\
  length (steps (trace (lp (nlp st1)))) = 1%nat /\
  solve prob ewt_set 600 100 st1 1 0 Normal = Ret (st2, 1, Ok Success) /\
  forall y yp, (p_root prob (g_t0 c) y yp 0 <? 0) = true /\ (0 <? p_root prob t1 y yp 0) = true /\ (0 <? p_root prob 1 y yp 0) = true.
Proof.
  destruct (after_reach _ _ _ _ _ _ _ _ early_life) as (st0 & st2 & rs & E0 & Er & _ & Ers). cbv beta in Ers. subst rs.
  destruct (run_two _ _ _ _ _ _ _ _ _ _ _ _ _ _ Er) as (st1 & S1 & S2).
  destruct (after_reach _ _ _ _ _ _ _ _ early_step) as (st0' & st1' & rs & E0' & Er' & _ & Ers).
  apply pair_equal_spec in Ers. destruct Ers as (-> & Hn).
  assert (st0' = st0) as -> by congruence.
  apply run_one in Er'. rewrite S1 in Er'. assert (st1' = st1) as -> by congruence.
  exists early, decay_ewt, (decay_conf early), [1], [-1], st0, st1, st2, early_t1.
  split; [exact E0|]. split; [exact S1|]. split; [exact Hn|]. split; [exact S2|].
  intros y yp. repeat split; vm_compute; reflexivity.
Qed.
Print Assumptions C59_refuted.

(** C60 fails: g = t - 0.5 increases, the reported direction is -1. *)
Definition rising : problem float := decay (fun t _ _ _ => t - 0.5).

Lemma rising_life : exists t, after rising decay_ewt (decay_conf rising) [1] [-1] [CallSolve 1 0 Normal] (fun st rs => (rs, get_root_info st)) =
  Some ([ReplySolve t (Ok RootReturn)], [-1]) /\ (0.25 <? t) = true /\ (t <? 0.75) = true.
Proof. eexists. split; [vm_compute; reflexivity|]. split; vm_compute; reflexivity. Qed.

Theorem C60_refuted : exists (prob : problem float) ewt_set c yy0 yp0 (st0 st : fstate) t,
  ida_new prob yy0 yp0 = Ret st0 /\
  solve prob ewt_set 600 100 (configure c st0) 1 0 Normal = Ret (st, t, Ok RootReturn) /\
  get_root_info st = [-1] /\
  (0.25 <? t) = true /\ (t <? 0.75) = true /\
  forall y yp, (p_root prob (g_t0 c) y yp 0 <? 0) = true /\ (p_root prob 0.25 y yp 0 <? 0) = true /\
    (0 <? p_root prob 0.75 y yp 0) = true /\ (0 <? p_root prob 1 y yp 0) = true.
Proof.
  destruct rising_life as (t & Hl & T1 & T2).
  destruct (after_reach _ _ _ _ _ _ _ _ Hl) as (st0 & st & rs & E0 & Er & _ & Ers).
  apply pair_equal_spec in Ers. destruct Ers as (-> & Hi). apply run_one in Er.
  exists rising, decay_ewt, (decay_conf rising), [1], [-1], st0, st, t.
  repeat (split; [assumption|]). intros y yp. repeat split; vm_compute; reflexivity.
Qed.
Print Assumptions C60_refuted.

(** C62 fails: with tolerances below the rounding level both calls end with
    TooMuchAccuracy before the first step; the root function was called twice,
    the counter says once. *)
Definition strict_ewt : list float -> list float := ewt_set_ss 1e-18 1e-20.
Lemma strict_life : after rising strict_ewt (decay_conf rising) [1] [-1] [CallSolve 1 0 Normal; CallSolve 1 0 Normal]
  (fun st rs => (rs, get_num_g_evals st, count is_root (trace (lp (nlp st))))) =
  Some ([ReplySolve 0 (Err (EIda (TooMuchAccuracy 0))); ReplySolve 0 (Err (EIda (TooMuchAccuracy 0)))], 1%nat, 2%nat).
Proof. vm_compute. reflexivity. Qed.

Theorem C62_refuted : exists (prob : problem float) ewt_set c yy0 yp0 (st : fstate),
  reach prob ewt_set c yy0 yp0 st /\ get_num_g_evals st <> count is_root (trace (lp (nlp st))).
Proof.
  destruct (after_reach _ _ _ _ _ _ _ _ strict_life) as (st0 & st & rs & E0 & Er & Hr & Ers).
  apply pair_equal_spec in Ers. destruct Ers as (Ers & H2). apply pair_equal_spec in Ers. destruct Ers as (_ & H1).
  exists rising, strict_ewt, (decay_conf rising), [1], [-1], st. split; [exact Hr|]. rewrite H1, H2. discriminate.
Qed.
Print Assumptions C62_refuted.
