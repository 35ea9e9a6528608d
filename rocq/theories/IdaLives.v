(** * IdaLives: every life of an object makes the steps of one run *)
Require Import List Arith Bool Lia.
Import ListNotations.
Require Import Verif.Base Verif.BaseFacts Verif.Scalar Verif.Norms Verif.Newton Verif.NewtonSpec Verif.IdaState
  Verif.IdaNls Verif.IdaCore Verif.IdaRoots Verif.IdaSolve Verif.IdaFacts Verif.IdaLoops Verif.IdaStep Verif.IdaSpec
  Verif.IdaShell Verif.IdaReach Verif.IdaInv Verif.Units Verif.UnitsRel Verif.IdaKern Verif.IdaRuns.
Open Scope nat_scope.

Section Lives.
Context {T LSt NSt : Type} `{Scalar T} `{LSolver T LSt} `{NLSolver T NSt}.
Hypothesis Hn : nls_natural T NSt.
Variable ewt_set : list T -> list T.
Notation state := (ida T LSt NSt).
Variable prob : problem T.
Variable c : @config T.
Variables yy0 yp0 : list T.
Hypothesis Hc : config_ok c.
Hypothesis Hts : g_tstop c = None.
Variable st00 : state.
Hypothesis H00 : ida_new (noroots prob) yy0 yp0 = Ret st00.
Notation base := (IdaRuns.base c st00).
Notation start := (IdaRuns.start prob c st00).
Notation run := (IdaRuns.run ewt_set).
Notation sound := (IdaRuns.sound ewt_set prob c yy0 st00).
Notation life := (IdaRuns.life ewt_set prob c yy0 yp0).

Ltac split_all := repeat match goal with H : _ /\ _ |- _ => destruct H end.

Lemma pre_kcore (a b : state) : kcore b = kcore a -> kcore (pre b) = kcore (pre a).
Proof.
  intros K. apply kcore_fields in K. cbv zeta in K. split_all.
  unfold kcore, pre. cbn [setup_done constraints_set suppressalg phi psi alpha beta sigma gamma delta idv ee tstop kk kused knew phase ns
    h0u hh hused rr cjlast eps_newt epcon maxncf maxnef maxord hmax_inv nst ncfn netf nls nlp set_hh set_h0u set_setup_done set_eps_newt].
  repeat match goal with H : _ = _ |- _ => rewrite H; clear H end. reflexivity.
Qed.

Lemma start_fields h : tstop (start h) = tstop base /\ h0u (start h) = h /\ nst (start h) = nst base.
Proof. unfold IdaRuns.start. generalize base. intros. split; [reflexivity|]. split; reflexivity. Qed.

(** Between the steps of a call. *)
Definition going (h : T) (st : state) : Prop :=
  (exists k, run (noroots prob) (start h) k st) /\ ordok st /\ tstop st = None /\
  (nst st = 0 -> ewt (nlp st) = ewt_set (row (phi st) 0)).

Lemma run_tstop h k (st : state) : run (noroots prob) (start h) k st -> tstop st = None /\ h0u st = h /\ (k = 0 -> nst st = 0).
Proof.
  intros R. destruct (run_keeps Hn _ _ _ _ _ R) as (A & B & C).
  destruct (base_facts prob c yy0 yp0 Hts st00 H00) as (_ & Bt & Bn & _).
  destruct (start_fields h) as (S1 & S2 & S3). rewrite A, B, S1, S2. split; [exact Bt|]. split; [reflexivity|].
  intros E. rewrite (C E), S3. exact Bn.
Qed.

Lemma shell_going h (a b : state) : shell prob a b -> (exists k, run (noroots prob) (start h) k a) -> ordok a ->
  (exists k, run (noroots prob) (start h) k b) /\ ordok b /\ tstop b = None /\ kcore b = kcore a.
Proof.
  intros S (k & R) O. destruct (run_tstop _ _ _ R) as (Et & _).
  destruct (shell_kcore _ _ _ S Et) as (K & Ow).
  split; [exists k; exact (run_kcore _ _ _ _ _ _ R K Ow)|]. split; [exact (shell_ord _ _ _ S O)|].
  split; [|exact K]. destruct (kcore_outer _ _ K) as (E & _). exact (eq_trans E Et).
Qed.

Lemma solve_loop_going h fuel rfuel tout itask (st st' : state) tret nl t r :
  going h st -> solve_loop prob ewt_set fuel rfuel st tout tret itask nl = Ret (st', t, r) ->
  (exists k, run (noroots prob) (start h) k st') /\ (nst st' = 0 -> ~ refused (ReplySolve t r)).
Proof.
  intros G E. revert G E.
  apply (solve_loop_ind prob ewt_set (fun s _ _ => going h s)
    (fun s t r => (exists k, run (noroots prob) (start h) k s) /\ (nst s = 0 -> ~ refused (ReplySolve t r)))).
  - intros s n1 t1 s' t' r' (R & O & Et & _) E. apply pre_step_shell in E. destruct E as (S & _ & Er).
    destruct (shell_going h s s' S R O) as (R' & _). split; [exact R'|]. intros _.
    destruct Er as [(-> & _)|(_ & [->| ->])]; cbn; auto.
  - intros s n1 t1 s1 s2 e s' t' r' (R & O & Et & Hw) E1 E2 E3.
    apply pre_step_shell in E1. destruct E1 as (S & _ & W1 & W0 & _).
    destruct (shell_going h s s1 S R O) as ((k & R1) & O1 & Et1 & K1).
    assert (ewt (nlp s1) = ewt_set (row (phi s1) 0)) as W.
    { rewrite (kcore_phi _ _ K1). destruct (Nat.eq_dec (nst s) 0) as [Z|Z]; [rewrite (W0 Z); exact (Hw Z)|apply W1; exact Z]. }
    pose proof (step_spec prob (natural_lawful Hn) _ _ _ _ O1 E2) as X.
    destruct (stepped_ord prob _ _ _ O1 X) as (O2 & _).
    assert (run (noroots prob) (start h) (Datatypes.S k) s2) as R2.
    { eapply run_S; [exact R1|exact W|exact O1|rewrite step_noroots; exact E2|reflexivity|reflexivity]. }
    apply step_failed_shell in E3. destruct E3 as (S3 & -> & _).
    destruct (shell_going h s2 s' S3 (ex_intro _ _ R2) O2) as (R' & _). split; [exact R'|]. intros _.
    destruct X as (sta & nef & st1 & ck & ek & ek1 & r1 & _ & _ & _ & [(_ & D & _)|(e1 & _ & _ & [(_ & _ & _ & D & _)|((m & Em) & D & _)])]);
      [discriminate|injection D as ->; cbn; auto|injection D as ->; rewrite Em; cbn; auto].
  - intros s n1 t1 s1 s2 u s' t' r' (R & O & Et & Hw) E1 E2 E3.
    apply pre_step_shell in E1. destruct E1 as (S & _ & W1 & W0 & _).
    destruct (shell_going h s s1 S R O) as ((k & R1) & O1 & Et1 & K1).
    assert (ewt (nlp s1) = ewt_set (row (phi s1) 0)) as W.
    { rewrite (kcore_phi _ _ K1). destruct (Nat.eq_dec (nst s) 0) as [Z|Z]; [rewrite (W0 Z); exact (Hw Z)|apply W1; exact Z]. }
    pose proof (step_spec prob (natural_lawful Hn) _ _ _ _ O1 E2) as X.
    destruct (stepped_ord prob _ _ _ O1 X) as (O2 & _ & _ & _ & N2).
    assert (run (noroots prob) (start h) (Datatypes.S k) s2) as R2.
    { eapply run_S; [exact R1|exact W|exact O1|rewrite step_noroots; exact E2|reflexivity|reflexivity]. }
    apply post_step_shell in E3. destruct E3 as (s3 & S3 & E3).
    destruct (shell_going h s2 s3 S3 (ex_intro _ _ R2) O2) as (R3 & O3 & Et3 & K3).
    assert (nst s3 <> 0) as N3 by (destruct (kcore_outer _ _ K3) as (_ & _ & E); lia).
    destruct E3 as [(-> & L & _)|(Hr & S4)].
    + apply lims_none in L; [|exact Et3]. subst s'. split; [|intros D; exfalso; apply D; reflexivity]. intros _.
      split; [exact R3|]. split; [exact O3|]. split; [exact Et3|]. intros Z. contradiction.
    + split; [intros D; contradiction|]. intros _.
      assert (shell prob s3 s') as S5.
      { destruct S4 as [S4|(s4 & L & S4)]; [exact S4|]. apply lims_none in L; [|exact Et3]. subst s4. exact S4. }
      destruct (shell_going h s3 s' S5 R3 O3) as (R' & _ & _ & K'). split; [exact R'|].
      destruct (kcore_outer _ _ K') as (_ & _ & E). intros Z. exfalso. lia.
Qed.

(** Every life is sound. *)
Lemma shell_sound o (a b : state) : shell prob a b -> tstop a = None -> hin b = hin a ->
  (ewt (nlp b) = ewt (nlp a)) -> sound o a -> sound o b.
Proof.
  intros S Et Eh Ew (A & B). destruct (shell_kcore _ _ _ S Et) as (K & Ow).
  destruct (kcore_outer _ _ K) as (E1 & E2 & E3). split.
  - intros Z. rewrite E3 in Z. destruct (A Z) as (K0 & O0 & H0' & W0).
    split; [|split; [rewrite Ow; exact O0|split; [rewrite Eh; exact H0'|]]].
    + rewrite <- K0. apply pre_kcore. exact K.
    + intros Es. rewrite Ew. apply W0. apply kcore_fields in K. destruct K as (((K & _) & _) & _). rewrite <- K. exact Es.
  - intros Z. rewrite E3 in Z. destruct (B Z) as ((k & R) & D). rewrite E2. split; [|exact D].
    exists k. exact (run_kcore _ _ _ _ _ _ R K Ow).
Qed.

Lemma life_sound o (st : state) : life o st -> sound o st.
Proof.
  induction 1 as [st E|fuel rfuel o st k st' rep L IH E Hr].
  - destruct (new_kcore prob c yy0 yp0 st00 H00 st E) as (K & Eh & Et & Es). destruct (base_facts prob c yy0 yp0 Hts st00 H00) as (_ & _ & Bn & _).
    split.
    + intros _. split; [|split; [rewrite Et; reflexivity|split; [exact Eh|intros D; rewrite Es in D; discriminate]]].
      apply pre_kcore. exact K.
    + intros Z. exfalso. apply Z. destruct (kcore_outer _ _ K) as (_ & _ & E3). exact (eq_trans E3 Bn).
  - pose proof (reach_ord prob ewt_set (natural_lawful Hn) c yy0 yp0 st Hc (life_reach _ _ _ _ _ o st L)) as O.
    assert (tstop st = None) as Et.
    { destruct (Nat.eq_dec (nst st) 0) as [Z|Z].
      - destruct IH as (A & _). destruct (A Z) as (K & _). apply (pre_fields prob c yy0 yp0 Hts st00 H00) in K. apply K.
      - destruct IH as (_ & B). destruct (B Z) as ((k1 & R) & _). apply run_tstop in R. apply R. }
    destruct k as [tout tret itask|t|t kd]; cbn [api_call first_tout] in *.
    + apply bind_ret_inv in E. destruct E as ([[s t] r] & E & Er). injection Er as <- <-.
      rewrite solve_unfold in E.
      set (st1 := set_taskc itask (match itask with Normal => set_toutc tout st | OneStep => st end)) in *.
      assert (shell prob st st1) as S1 by apply task_shell.
      assert (sound o st1) as IH1 by (apply (shell_sound o st st1 S1 Et); [destruct itask; reflexivity|destruct itask; reflexivity|exact IH]).
      assert (nst st1 = nst st) as En by (unfold st1; destruct itask; reflexivity).
      assert (ordok st1) as O1 by exact (shell_ord _ _ _ S1 O).
      assert (tstop st1 = None) as Et1 by (unfold st1; destruct itask; exact Et).
      clearbody st1. apply bind_ret_inv in E. destruct E as (x & Es & E).
      apply solve_start_cases in Es.
      destruct Es as [(Z & s1 & m & Ef & ->)|[(Z & s1 & l & Ef & Zs & _ & Sl & ->)|(Z & l & _ & Sl & El)]].
      * injection E as <- <- <-.
        assert (sound None st1) as IH2 by (split; [apply IH1|intros D; contradiction]).
        pose proof (first_sound ewt_set prob c yy0 yp0 Hts st00 H00 st1 tout _ IH2 Z Ef) as (A & B). cbv beta iota in A, B.
        assert (nst s1 = 0) as Z1.
        { destruct (Nat.eq_dec (nst s1) 0) as [D|D]; [exact D|]. destruct (B D) as (_ & t1 & D1 & _). discriminate. }
        rewrite Z1, andb_false_r. split; [exact A|intros D; contradiction].
      * assert (sound None st1) as IH2 by (split; [apply IH1|intros D; contradiction]).
        pose proof (first_sound ewt_set prob c yy0 yp0 Hts st00 H00 st1 tout _ IH2 Z Ef) as (R & F & N & W & Ts). cbv beta iota in R, F, N, W, Ts.
        pose proof (first_ord prob ewt_set st1 tout _ Z Ef O1) as Os.
        cbv beta iota in E.
        destruct (shell_going (h0u s1) s1 _ Sl (ex_intro _ 0 R) Os) as (R1 & O2 & Et2 & _).
        assert (going (h0u s1) (on_lp (fun _ => l) s1)) as G by (split; [exact R1|split; [exact O2|split; [exact Et2|intros _; exact W]]]).
        destruct (solve_loop_going _ _ _ _ _ _ _ _ _ _ _ G E) as ((k & Rk) & Hz).
        assert (nst s <> 0) as Zs' by (intros D; exact (Hz D (Hr D))).
        destruct (run_tstop _ _ _ Rk) as (_ & Eh & Ek).
        apply Nat.eqb_neq in Zs' as Zb. rewrite <- En, Z, Zb. cbn [Nat.eqb andb negb].
        split; [intros D; contradiction|]. intros _. rewrite Eh. split; [|exists tout; auto].
        destruct k as [|k]; [exfalso; apply Zs'; apply Ek; reflexivity|]. exists k. exact Rk.
      * destruct IH1 as (_ & B). destruct (B Z) as ((k0 & R0) & D0).
        destruct (shell_going (h0u st1) st1 _ Sl (ex_intro _ _ R0) O1) as (R1 & O2 & Et2 & K2).
        apply later_call_shell in El.
        assert ((exists k, run (noroots prob) (start (h0u st1)) k s) /\ nst s <> 0) as ((k & Rk) & Zs).
        { destruct (kcore_outer _ _ K2) as (_ & _ & N2).
          destruct x as [[[s0 t0] r0]|[s0 t0]].
          - injection E as <- <- <-. destruct El as (_ & S3).
            destruct (shell_going (h0u st1) _ _ S3 R1 O2) as (R3 & _ & _ & K3). split; [exact R3|].
            destruct (kcore_outer _ _ K3) as (_ & _ & N3). rewrite N3, N2. exact Z.
          - destruct El as (-> & s2 & S3 & _ & Lm & _).
            destruct (shell_going (h0u st1) _ _ S3 R1 O2) as (R3 & O3 & Et3 & K3).
            apply lims_none in Lm; [|exact Et3]. subst s0.
            destruct (kcore_outer _ _ K3) as (_ & _ & N3).
            assert (nst s2 <> 0) as N4 by (rewrite N3, N2; exact Z).
            assert (going (h0u st1) s2) as G by (split; [exact R3|split; [exact O3|split; [exact Et3|intros D; contradiction]]]).
            destruct (solve_loop_going _ _ _ _ _ _ _ _ _ _ _ G E) as (Rk & Hz). split; [exact Rk|].
            intros D. exact (Hz D (Hr D)). }
        destruct (run_tstop _ _ _ Rk) as (_ & Eh & Ek).
        apply Nat.eqb_neq in Z as Zb. rewrite <- En, Zb. cbn [andb].
        split; [intros D; contradiction|]. intros _. rewrite Eh. split; [|exact D0].
        destruct k as [|k]; [exfalso; apply Zs; apply Ek; reflexivity|]. exists k. exact Rk.
    + apply bind_ret_inv in E. destruct E as ([s r] & E & Er). injection Er as <- <-.
      pose proof (get_solution_frame prob st s t r E) as (F0 & _ & _ & _ & F).
      apply (shell_sound o st s (get_solution_shell prob st t s r E) Et); [|unfold nlprest in F; congruence|exact IH].
      unfold cfg in F0. injection F0. intros. assumption.
    + apply bind_ret_inv in E. destruct E as ([s r] & E & Er). injection Er as <- <-. exact IH.
Qed.

End Lives.
