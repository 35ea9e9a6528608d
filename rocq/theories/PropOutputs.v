(** * PropOutputs: the steps do not depend on where output is asked for: C84
      (src/impl_solve.rs, src/lib.rs) *)
Require Import List Arith Bool Lia Floats.
Import ListNotations.
Require Import Verif.Base Verif.BaseFacts Verif.Scalar Verif.ScalarF Verif.Norms Verif.Newton Verif.NewtonSpec Verif.IdaState
  Verif.IdaNls Verif.IdaCore Verif.IdaRoots Verif.IdaSolve Verif.IdaIo Verif.IdaFacts Verif.IdaLoops Verif.IdaStep Verif.IdaSpec
  Verif.IdaShell Verif.IdaReach Verif.IdaInv Verif.IdaCount Verif.IdaKern Verif.IdaRuns Verif.IdaLives Verif.Witness.
Open Scope nat_scope.

(** ** Vocabulary *)
(** Same differential equations; root functions may differ. *)
Definition same_equations {T} (p q : problem T) : Prop :=
  model_size p = model_size q /\ p_res p = p_res q /\ p_jac p = p_jac q.
(** Same settings but for the initial step size, the limit on the number of
    steps per call and the root directions. *)
Definition same_settings {T} (c d : @config T) : Prop :=
  g_maxord c = g_maxord d /\ g_maxnef c = g_maxnef d /\ g_maxncf c = g_maxncf d /\ g_hmax_inv c = g_hmax_inv d /\
  g_epcon c = g_epcon d /\ g_t0 c = g_t0 d /\ g_suppressalg c = g_suppressalg d /\ g_idv c = g_idv d /\
  g_tstop c = None /\ g_tstop d = None.
(** [a] is how the history [b] began (latest event first). *)
Definition began_as {A} (a b : list A) : Prop := exists later, b = later ++ a.
(** Internal steps begun so far, whether they succeeded or not. *)
Definition begun {T} (tr : list (event T)) : nat := count is_begin tr.

Section Outputs.
Context {T LSt NSt : Type} `{Scalar T} `{LSolver T LSt} `{NLSolver T NSt}.
Notation state := (ida T LSt NSt).
Notation tr st := (trace (lp (nlp st))).

Lemma begun_own (l : list (event T)) : begun (own l) = begun l.
Proof. unfold begun, count, own. induction l as [|e l IH]; [reflexivity|]. destruct e; cbn in *; auto. Qed.

Lemma quiet_begun (l : list (event T)) : quiet_evs l -> begun l = 0.
Proof. intros Q. eapply count_none; try exact Q. intros e; destruct e; cbn; congruence. Qed.
Lemma begun_app (a b : list (event T)) : begun (a ++ b) = begun a + begun b.
Proof. apply count_app. Qed.
Lemma begun_cons e (b : list (event T)) : begun (e :: b) = (if is_begin e then 1 else 0) + begun b.
Proof. unfold begun, count. cbn. destruct (is_begin e); reflexivity. Qed.
Lemma step_evs_begun (l : list (event T)) f : step_evs l f -> begun l = 0.
Proof.
  induction 1 as [|evs f t h k cs _ IH Hq]; [reflexivity|].
  rewrite begun_cons, begun_app, begun_cons, IH, (quiet_begun _ Hq). reflexivity.
Qed.

Section One.
Hypothesis Hn : nls_natural T NSt.
Variable ewt_set : list T -> list T.

Lemma run_begun prob (st0 : state) k : forall s, run ewt_set prob st0 k s -> begun (tr s) = k.
Proof.
  induction k as [|k IH]; intros s R.
  - inversion R; subst. rewrite <- begun_own. match goal with X : own (tr s) = [] |- _ => rewrite X end. reflexivity.
  - apply run_inv in R. destruct R as (a & f & b & r & Ra & Wa & Ca & Sa & Ka & Oa).
    rewrite <- begun_own, Oa, begun_own.
    pose proof (step_spec prob (natural_lawful Hn) f a b r Ca Sa) as X.
    destruct (stepped_ext prob ewt_set (natural_lawful Hn) a b r Ca X) as (evs & cs & t & h & kq & fq & Se & Qe & _ & Ex).
    destruct Ex as (Et & _). rewrite Et, !begun_app, begun_cons, begun_app, (IH a Ra), (step_evs_begun _ _ Se), (quiet_begun _ Qe).
    destruct r as [|[]]; cbn; lia.
Qed.

(** What a life of an object says about the steps, in terms of runs. *)
Lemma life_new_ok prob c yy0 yp0 o (st : state) : life ewt_set prob c yy0 yp0 o st ->
  exists st00, @ida_new T LSt NSt _ _ _ (noroots prob) yy0 yp0 = Ret st00.
Proof.
  induction 1 as [st E|]; [|assumption]. revert E. unfold ida_new. change (model_size (noroots prob)) with (model_size prob).
  destruct (_ && _); [|discriminate]. intros _. eexists. reflexivity.
Qed.

Lemma same_noroots (p q : problem T) : same_equations p q -> noroots p = noroots q.
Proof. intros (A & B & C). unfold noroots. rewrite A, B, C. reflexivity. Qed.
Lemma same_numerics (c d : @config T) : same_settings c d -> numerics c = numerics d.
Proof. intros (A1 & A2 & A3 & A4 & A5 & A6 & A7 & A8 & A9 & A10). unfold numerics. congruence. Qed.

Variables p q : problem T.
Variables c d : @config T.
Variables yy0 yp0 : list T.
Hypothesis Heq : same_equations p q.
Hypothesis Hset : same_settings c d.
Hypothesis Hc : config_ok c.

Lemma config_ok_d : config_ok d.
Proof. revert Hc. unfold config_ok. destruct Hset as (E & _). rewrite E. auto. Qed.

Variables o1 o2 : option T.
Variables s1 s2 : state.
Hypothesis L1 : life ewt_set p c yy0 yp0 o1 s1.
Hypothesis L2 : life ewt_set q d yy0 yp0 o2 s2.

Lemma two_runs : nst s1 <> 0 -> nst s2 <> 0 -> exists st00, 
  (exists k, run ewt_set (noroots p) (start p c st00 (h0u s1)) k s1) /\
  (exists k, run ewt_set (noroots p) (start p c st00 (h0u s2)) k s2) /\
  (exists t, o1 = Some t /\ first_size ewt_set c yy0 st00 t (h0u s1)) /\
  (exists t, o2 = Some t /\ first_size ewt_set d yy0 st00 t (h0u s2)) /\
  base c st00 = base d st00.
Proof.
  intros N1 N2. destruct (life_new_ok _ _ _ _ _ _ L1) as (st00 & E1).
  pose proof E1 as E2. rewrite (same_noroots _ _ Heq) in E2. exists st00.
  pose proof Hset as (_ & _ & _ & _ & _ & _ & _ & _ & Tc & Td).
  destruct (life_sound Hn ewt_set p c yy0 yp0 Hc Tc st00 E1 o1 s1 L1) as (_ & B1).
  destruct (life_sound Hn ewt_set q d yy0 yp0 config_ok_d Td st00 E2 o2 s2 L2) as (_ & B2).
  destruct (B1 N1) as ((k1 & R1) & F1). destruct (B2 N2) as ((k2 & R2) & F2).
  assert (base c st00 = base d st00) as Eb by (unfold base; rewrite (same_numerics _ _ Hset); reflexivity).
  split; [exists (S k1); exact R1|]. split; [exists (S k2)|].
  { rewrite (same_noroots _ _ Heq). unfold start in R2 |- *. rewrite Eb. destruct Heq as (-> & _). exact R2. }
  split; [exact F1|]. split; [exact F2|]. exact Eb.
Qed.

Lemma unstepped_p : nst s1 = 0 -> own (tr s1) = [].
Proof.
  intros Z. destruct (life_new_ok _ _ _ _ _ _ L1) as (st00 & E1). pose proof Hset as (_ & _ & _ & _ & _ & _ & _ & _ & Tc & _).
  destruct (life_sound Hn ewt_set p c yy0 yp0 Hc Tc st00 E1 o1 s1 L1) as (A & _). apply A. exact Z.
Qed.
Lemma unstepped_q : nst s2 = 0 -> own (tr s2) = [].
Proof.
  intros Z. destruct (life_new_ok _ _ _ _ _ _ L2) as (st00 & E1). pose proof Hset as (_ & _ & _ & _ & _ & _ & _ & _ & _ & Td).
  destruct (life_sound Hn ewt_set q d yy0 yp0 config_ok_d Td st00 E1 o2 s2 L2) as (A & _). apply A. exact Z.
Qed.

Lemma steps_agree :
  (nst s1 <> 0 -> nst s2 <> 0 -> h0u s1 = h0u s2) ->
  (begun (tr s1) <= begun (tr s2) -> began_as (own (tr s1)) (own (tr s2))) /\
  (begun (tr s2) <= begun (tr s1) -> began_as (own (tr s2)) (own (tr s1))) /\
  (begun (tr s1) = begun (tr s2) -> nst s1 <> 0 -> nst s2 <> 0 -> kcore s1 = kcore s2).
Proof.
  intros Hh.
  destruct (Nat.eq_dec (nst s1) 0) as [Z1|Z1].
  { pose proof (unstepped_p Z1) as E. rewrite E. split; [intros _; exists (own (tr s2)); rewrite app_nil_r; reflexivity|].
    split; [|intros _ D; contradiction].
    rewrite <- (begun_own (tr s1)), E. intros D. exists []. 
    destruct (Nat.eq_dec (nst s2) 0) as [Z2|Z2]; [rewrite (unstepped_q Z2); reflexivity|].
    exfalso. destruct (life_new_ok _ _ _ _ _ _ L2) as (st00 & E1). pose proof Hset as (_ & _ & _ & _ & _ & _ & _ & _ & _ & Td).
    destruct (life_sound Hn ewt_set q d yy0 yp0 config_ok_d Td st00 E1 o2 s2 L2) as (_ & B). destruct (B Z2) as ((k & R) & _).
    apply run_begun in R. cbn in D. lia. }
  destruct (Nat.eq_dec (nst s2) 0) as [Z2|Z2].
  { pose proof (unstepped_q Z2) as E. rewrite E. split; [|split; [intros _; exists (own (tr s1)); rewrite app_nil_r; reflexivity|intros _ _ D; contradiction]].
    rewrite <- (begun_own (tr s2)), E. intros D.
    exfalso. destruct (life_new_ok _ _ _ _ _ _ L1) as (st00 & E1). pose proof Hset as (_ & _ & _ & _ & _ & _ & _ & _ & Tc & _).
    destruct (life_sound Hn ewt_set p c yy0 yp0 Hc Tc st00 E1 o1 s1 L1) as (_ & B). destruct (B Z1) as ((k & R) & _).
    apply run_begun in R. cbn in D. lia. }
  destruct (two_runs Z1 Z2) as (st00 & (k1 & R1) & (k2 & R2) & _). rewrite (Hh Z1 Z2) in R1.
  rewrite (run_begun _ _ _ _ R1), (run_begun _ _ _ _ R2).
  split; [|split].
  - intros D. replace k2 with ((k2 - k1) + k1) in R2 by lia. destruct (run_prefix Hn _ _ _ _ _ _ _ R1 R2) as (evs & E). exists evs. exact E.
  - intros D. replace k1 with ((k1 - k2) + k2) in R1 by lia. destruct (run_prefix Hn _ _ _ _ _ _ _ R2 R1) as (evs & E). exists evs. exact E.
  - intros D _ _. subst k2. destruct (run_det Hn _ _ _ _ _ _ R2 R1) as (E & _). exact E.
Qed.

(** The first step size when one is given, and when it is chosen from the
    distance to the first output time. *)
Lemma given_first : g_hin c = g_hin d -> sneqb (g_hin c) szero = true -> nst s1 <> 0 -> nst s2 <> 0 -> h0u s1 = h0u s2.
Proof.
  intros Eh Hz N1 N2. destruct (two_runs N1 N2) as (st00 & _ & _ & (t1 & _ & F1) & (t2 & _ & F2) & Eb).
  unfold first_size in F1, F2. rewrite <- Eh, <- Eb in F2.
  pose proof Hset as (_ & _ & _ & _ & _ & _ & _ & _ & Tc & _).
  assert (tstop (base c st00) = None) as Et by exact Tc.
  revert F1 F2 Et. generalize (base c st00). intros b (a1 & A1 & <-) (a2 & A2 & <-) Et. revert A1 A2. unfold first_step.
  unfold sneqb in Hz. apply negb_true_iff in Hz.
  cbn [tn nlp hin phi idv ewt suppressalg hmax_inv tstop hh set_hh set_hin on_nlp set_nlp set_ewt]. rewrite Hz. cbn [bind].
  repeat (destruct (_ =? szero)%sc; [discriminate|]).
  intros A1 A2. revert A1 A2.
  repeat match goal with |- context [if ?x then _ else _] => destruct x; cbn [bind tstop set_hh]; try discriminate end;
  cbn [tstop set_hh set_hin on_nlp set_nlp]; rewrite ?Et; try discriminate; intros A1 A2; injection A1 as <-; injection A2 as <-; reflexivity.
Qed.

Lemma same_first t : g_hin c = g_hin d -> o1 = Some t -> o2 = Some t -> nst s1 <> 0 -> nst s2 <> 0 -> h0u s1 = h0u s2.
Proof.
  intros Eh O1 O2 N1 N2. destruct (two_runs N1 N2) as (st00 & _ & _ & (t1 & D1 & F1) & (t2 & D2 & F2) & Eb).
  assert (t1 = t) by congruence. assert (t2 = t) by congruence. subst t1 t2.
  unfold first_size in F1, F2. rewrite <- Eh, <- Eb in F2.
  revert F1 F2. generalize (base c st00). intros b (a1 & A1 & <-) (a2 & A2 & <-). congruence.
Qed.

End One.

Lemma rowcomb_ext (p q : problem T) c1 c2 ph lo k : model_size p = model_size q -> (forall j, j < k -> vget c1 j = vget c2 j) ->
  rowcomb p c1 ph lo k = rowcomb q c2 ph lo k.
Proof.
  intros En. induction k as [|k IH]; intros E; cbn; rewrite <- En; [reflexivity|].
  rewrite IH by (intros; apply E; lia). rewrite E by lia. reflexivity.
Qed.

(** Dense output is a function of what a step leaves behind. *)
Lemma kcore_dense (p q : problem T) (a b a1 b1 : state) t r1 r2 : same_equations p q -> ordok a -> ordok b -> kcore a = kcore b ->
  get_solution p a t = Ret (a1, r1) -> get_solution q b t = Ret (b1, r2) ->
  r1 = r2 /\ (r1 = Ok tt -> get_yy a1 = get_yy b1 /\ get_yp a1 = get_yp b1).
Proof.
  intros (En & _) Oa Ob K Ea Eb. apply kcore_fields in K.
  assert (phi a = phi b) as Ep by apply K. assert (psi a = psi b) as Es by apply K.
  assert (kused a = kused b) as Ek by apply K. assert (tn (nlp a) = tn (nlp b)) as Et by apply K.
  assert (hh a = hh b) as Eh by apply K. assert (hused a = hused b) as Eu by apply K. clear K.
  assert (time_check a t = time_check b t) as Ec by (unfold time_check; rewrite Et, Eh, Eu; reflexivity).
  destruct Oa as (Aa & Ma & _ & Ka & _). destruct Ob as (Ab & Mb & _ & Kb & _).
  pose proof (get_solution_spec p a t Aa ltac:(lia)) as Sa. pose proof (get_solution_spec q b t Ab ltac:(lia)) as Sb.
  rewrite <- Ec in Sb. destruct (time_check a t) as [e|].
  { rewrite Sa in Ea. rewrite Sb in Eb. injection Ea as _ <-. injection Eb as _ <-. split; [reflexivity|discriminate]. }
  destruct Sa as (cv & dv & Sa & _ & _ & Ca & Da). destruct Sb as (cv' & dv' & Sb & _ & _ & Cb & Db).
  rewrite Sa in Ea. rewrite Sb in Eb. injection Ea as <- <-. injection Eb as <- <-. split; [reflexivity|]. intros _.
  assert (kord a = kord b) as Eo by (unfold kord; rewrite Ek; reflexivity).
  unfold get_yy, get_yp. cbn [nlp on_nlp set_nlp set_yp set_yy yy yp].
  rewrite <- Ep, <- Eo. rewrite <- Eo in Cb, Db. rewrite <- Es, <- Et in Cb, Db.
  split; apply (rowcomb_ext p q); try exact En; intros j Hj.
  - rewrite Ca, Cb by lia. reflexivity.
  - rewrite Da, Db by lia. reflexivity.
Qed.

Lemma kcore_dky (p q : problem T) (a b : state) t k z : same_equations p q -> kcore a = kcore b ->
  get_dky p a t k z = get_dky q b t k z.
Proof.
  intros (En & _) K. apply kcore_fields in K.
  assert (phi a = phi b) as Ep by apply K. assert (psi a = psi b) as Es by apply K.
  assert (kused a = kused b) as Ek by apply K. assert (tn (nlp a) = tn (nlp b)) as Et by apply K.
  assert (hh a = hh b) as Eh by apply K. assert (hused a = hused b) as Eu by apply K. clear K.
  assert (time_check a t = time_check b t) as Ec by (unfold time_check; rewrite Et, Eh, Eu; reflexivity).
  unfold get_dky. rewrite Ec, Ep, Es, Ek, Et, En. reflexivity.
Qed.

(** ** C84 *)
(** [life o st]: the object is created, configured and called any number of
    times, in any order, with any arguments; [o] is the output time of the call
    that made the first step.  A call that leaves the object without a step was
    refused because of its arguments ([refused]); a first step that fails is
    not covered (see there).  [own] leaves evaluations of root functions and
    warnings out of a history; residual and Jacobian evaluations with their
    arguments, tries with time, size and order, failures and accepted steps with
    their solutions stay. *)
Notation life := (IdaRuns.life).

Theorem C84_same_first_step_same_steps : nls_natural T NSt -> forall ewt_set (p q : problem T) c d yy0 yp0 o1 o2 (s1 s2 : state),
  same_equations p q -> same_settings c d -> config_ok c ->
  life ewt_set p c yy0 yp0 o1 s1 -> life ewt_set q d yy0 yp0 o2 s2 ->
  (get_num_steps s1 <> 0 -> get_num_steps s2 <> 0 -> get_actual_init_step s1 = get_actual_init_step s2) ->
  (begun (tr s1) <= begun (tr s2) -> began_as (own (tr s1)) (own (tr s2))) /\
  (begun (tr s2) <= begun (tr s1) -> began_as (own (tr s2)) (own (tr s1))).
Proof.
  intros Hn ewt_set p q c d yy0 yp0 o1 o2 s1 s2 Heq Hset Hc L1 L2 Hh.
  destruct (steps_agree Hn ewt_set p q c d yy0 yp0 Heq Hset Hc o1 o2 s1 s2 L1 L2 Hh) as (A & B & _). auto.
Qed.

(** A given initial step, or the same first output time, is enough. *)
Theorem C84_outputs_do_not_change_the_steps : nls_natural T NSt -> forall ewt_set (p q : problem T) c d yy0 yp0 o1 o2 (s1 s2 : state),
  same_equations p q -> same_settings c d -> config_ok c -> g_hin c = g_hin d ->
  life ewt_set p c yy0 yp0 o1 s1 -> life ewt_set q d yy0 yp0 o2 s2 ->
  sneqb (g_hin c) szero = true \/ o1 = o2 ->
  (begun (tr s1) <= begun (tr s2) -> began_as (own (tr s1)) (own (tr s2))) /\
  (begun (tr s2) <= begun (tr s1) -> began_as (own (tr s2)) (own (tr s1))).
Proof.
  intros Hn ewt_set p q c d yy0 yp0 o1 o2 s1 s2 Heq Hset Hc Hh L1 L2 Ho.
  eapply C84_same_first_step_same_steps; eauto. intros N1 N2.
  destruct Ho as [Ho|Ho]; [eapply given_first; eauto|].
  destruct (two_runs Hn ewt_set p q c d yy0 yp0 Heq Hset Hc o1 o2 s1 s2 L1 L2 N1 N2) as (_ & _ & _ & (t & E & _) & _).
  exact (same_first Hn ewt_set p q c d yy0 yp0 Heq Hset Hc o1 o2 s1 s2 L1 L2 t Hh E (eq_trans (eq_sym Ho) E) N1 N2).
Qed.

(** After the same number of begun steps everything agrees: the history, time,
    step sizes, orders, counters, and interpolated values at every time. *)
Theorem C84_same_number_of_steps_same_solution : nls_natural T NSt -> forall ewt_set (p q : problem T) c d yy0 yp0 o1 o2 (s1 s2 : state),
  same_equations p q -> same_settings c d -> config_ok c -> g_hin c = g_hin d ->
  life ewt_set p c yy0 yp0 o1 s1 -> life ewt_set q d yy0 yp0 o2 s2 ->
  sneqb (g_hin c) szero = true \/ o1 = o2 -> begun (tr s1) = begun (tr s2) -> 0 < begun (tr s1) ->
  own (tr s1) = own (tr s2) /\
  (get_num_steps s1, get_current_time s1, get_current_setp s1, get_last_step s1, get_current_order s1, get_last_order s1) =
  (get_num_steps s2, get_current_time s2, get_current_setp s2, get_last_step s2, get_current_order s2, get_last_order s2) /\
  (get_num_res_evals s1, get_num_jac_evals s1, get_num_lin_solv_setups s1, get_num_err_test_fails s1, get_num_nonlin_solv_conv_fails s1) =
  (get_num_res_evals s2, get_num_jac_evals s2, get_num_lin_solv_setups s2, get_num_err_test_fails s2, get_num_nonlin_solv_conv_fails s2) /\
  (forall t k z, get_dky p s1 t k z = get_dky q s2 t k z) /\
  (forall t a1 b1 r1 r2, get_solution p s1 t = Ret (a1, r1) -> get_solution q s2 t = Ret (b1, r2) ->
     r1 = r2 /\ (r1 = Ok tt -> get_yy a1 = get_yy b1 /\ get_yp a1 = get_yp b1)).
Proof.
  intros Hn ewt_set p q c d yy0 yp0 o1 o2 s1 s2 Heq Hset Hc Hh L1 L2 Ho Eb Hb.
  destruct (C84_outputs_do_not_change_the_steps Hn ewt_set p q c d yy0 yp0 o1 o2 s1 s2 Heq Hset Hc Hh L1 L2 Ho) as (A & _).
  destruct (A ltac:(lia)) as (l & El).
  assert (N1 : nst s1 <> 0).
  { intros Z. pose proof (unstepped_p Hn ewt_set p c d yy0 yp0 Hset Hc o1 s1 L1 Z) as D. rewrite <- begun_own, D in Hb. cbn in Hb. lia. }
  assert (N2 : nst s2 <> 0).
  { intros Z. pose proof (unstepped_q Hn ewt_set q c d yy0 yp0 Hset Hc o2 s2 L2 Z) as D. rewrite Eb, <- begun_own, D in Hb. cbn in Hb. lia. }
  assert (h0u s1 = h0u s2) as E0.
  { destruct Ho as [Ho|Ho]; [eapply given_first; eauto|].
    destruct (two_runs Hn ewt_set p q c d yy0 yp0 Heq Hset Hc o1 o2 s1 s2 L1 L2 N1 N2) as (_ & _ & _ & (t & E & _) & _).
    exact (same_first Hn ewt_set p q c d yy0 yp0 Heq Hset Hc o1 o2 s1 s2 L1 L2 t Hh E (eq_trans (eq_sym Ho) E) N1 N2). }
  destruct (steps_agree Hn ewt_set p q c d yy0 yp0 Heq Hset Hc o1 o2 s1 s2 L1 L2 (fun _ _ => E0)) as (_ & B & C).
  specialize (C Eb N1 N2). destruct (B ltac:(lia)) as (l2 & El2).
  pose proof (reach_ord p ewt_set (natural_lawful Hn) c yy0 yp0 s1 Hc (life_reach _ _ _ _ _ _ _ L1)) as O1.
  pose proof (reach_ord q ewt_set (natural_lawful Hn) d yy0 yp0 s2 (config_ok_d c d Hset Hc) (life_reach _ _ _ _ _ _ _ L2)) as O2.
  split.
  { destruct l as [|e l]; [symmetry; exact El|]. exfalso. apply (f_equal (@length _)) in El, El2. rewrite app_length in El, El2. cbn in El. lia. }
  split; [|split; [|split]].
  - apply kcore_fields in C. unfold get_num_steps, get_current_time, get_current_setp, get_last_step, get_current_order, get_last_order.
    assert (nst s1 = nst s2) as -> by apply C. assert (tn (nlp s1) = tn (nlp s2)) as -> by apply C.
    assert (hh s1 = hh s2) as -> by apply C. assert (hused s1 = hused s2) as -> by apply C.
    assert (kk s1 = kk s2) as -> by apply C. assert (kused s1 = kused s2) as -> by apply C. reflexivity.
  - apply kcore_fields in C. unfold get_num_res_evals, get_num_jac_evals, get_num_lin_solv_setups, get_num_err_test_fails, get_num_nonlin_solv_conv_fails.
    assert (nre (nlp s1) = nre (nlp s2)) as -> by apply C. assert (nsetups (nlp s1) = nsetups (nlp s2)) as -> by apply C.
    assert (netf s1 = netf s2) as -> by apply C. assert (ncfn s1 = ncfn s2) as -> by apply C.
    assert (nje (lp (nlp s1)) = nje (lp (nlp s2))) as -> by (destruct C as (_ & _ & C); cbv zeta in C; injection C; auto). reflexivity.
  - intros. apply kcore_dky; assumption.
  - intros t a1 b1 r1 r2. apply (kcore_dense p q s1 s2 a1 b1 t r1 r2 Heq O1 O2 C).
Qed.

End Outputs.
Print Assumptions C84_same_first_step_same_steps.
Print Assumptions C84_outputs_do_not_change_the_steps.
Print Assumptions C84_same_number_of_steps_same_solution.

(** ** A concrete case: examples/roberts.rs, with its root functions and outputs
    at 0.4, 4, 40, against the same equations without root functions, asked for
    0.4 and then one step at a time, with values in between. *)
Definition roberts_plain : problem float :=
  mkproblem 3 0 (p_res robertsF) (p_jac robertsF) (fun _ _ _ _ => 0%float).

Fixpoint lives (prob : problem float) (st : fstate) (o : option float) (cs : list call) : option (option float * fstate) :=
  match cs with
  | [] => Some (o, st)
  | k :: cs =>
      match api_call prob roberts_ewt 600 100 st k with
      | Ret (st', _) => if nst st' =? 0 then None else lives prob st' (first_tout o st st' k) cs
      | _ => None
      end
  end.

Lemma lives_life prob c cs : forall (st : fstate) o o' st', life roberts_ewt prob c [1; 0; 0]%float [-0.04; 0.04; 0]%float o st ->
  lives prob st o cs = Some (o', st') -> life roberts_ewt prob c [1; 0; 0]%float [-0.04; 0.04; 0]%float o' st'.
Proof.
  induction cs as [|k cs IH]; intros st o o' st' L E; cbn [lives] in E.
  - injection E as <- <-. exact L.
  - destruct (api_call prob roberts_ewt 600 100 st k) as [[s r]| |] eqn:Ea; try discriminate.
    destruct (Nat.eqb_spec (nst s) 0) as [Z|Z]; [discriminate|].
    eapply IH; [|exact E]. eapply life_call; [exact L|exact Ea|]. intros D. contradiction.
Qed.

Definition lives_to (prob : problem float) (cs : list call) : option (option float * fstate) :=
  match ida_new prob [1; 0; 0]%float [-0.04; 0.04; 0]%float with
  | Ret st => lives prob (configure (default_config prob) st) None cs
  | _ => None
  end.

Lemma lives_to_life prob cs o st : lives_to prob cs = Some (o, st) ->
  life roberts_ewt prob (default_config prob) [1; 0; 0]%float [-0.04; 0.04; 0]%float o st.
Proof.
  unfold lives_to. destruct (ida_new prob _ _) as [s| |] eqn:E; try discriminate.
  intros El. eapply lives_life; [|exact El]. constructor. exact E.
Qed.

Definition outs_a : list (@call float) :=
  [CallSolve 0.4 0 Normal; CallSolve 0.4 0 Normal; CallSolve 4 0 Normal; CallSolve 4 0 Normal; CallSolve 40 0 Normal]%float.
Definition outs_b (k : nat) : list (@call float) :=
  ([CallSolve 0.4 0 Normal; CallGetSolution 0.35; CallSolve 0.41 0 OneStep; CallGetDky 0.4 1] ++ repeat (CallSolve 40 0 OneStep) k)%float.

Definition c84_test (x y : option (option float * fstate)) : bool :=
  match x, y with
  | Some (_, s), Some (_, s') =>
      (begun (trace (lp (nlp s))) =? 68) && (begun (trace (lp (nlp s'))) =? 68) &&
      (nge s =? 86) && (nge s' =? 0) && (get_num_err_test_fails s =? 1)
  | _, _ => false
  end.

Lemma lives_some prob x cs : forall (st st' : fstate) o', nst st <> 0 -> lives prob st (Some x) cs = Some (o', st') -> o' = Some x.
Proof.
  induction cs as [|k cs IH]; intros st st' o' Z E; cbn [lives] in E.
  - injection E as <- _. reflexivity.
  - destruct (api_call prob roberts_ewt 600 100 st k) as [[s r]| |]; try discriminate.
    destruct (Nat.eqb_spec (nst s) 0) as [Zs|Zs]; [discriminate|].
    assert (first_tout (Some x) st s k = Some x) as Ef.
    { unfold first_tout. destruct k; try reflexivity. apply Nat.eqb_neq in Z. rewrite Z. reflexivity. }
    rewrite Ef in E. exact (IH _ _ _ Zs E).
Qed.

Lemma lives_to_some prob tout tret m cs o st : lives_to prob (CallSolve tout tret m :: cs) = Some (o, st) -> o = Some tout.
Proof.
  unfold lives_to. destruct (ida_new prob _ _) as [s| |] eqn:E; try discriminate.
  assert (nst (configure (default_config prob) s) = 0) as Z.
  { revert E. unfold ida_new. destruct (_ && _); [|discriminate]. intros E. injection E as <-. reflexivity. }
  cbn [lives]. destruct (api_call prob roberts_ewt 600 100 _ _) as [[s1 r]| |]; try discriminate.
  unfold first_tout. rewrite Z. cbn [Nat.eqb andb]. destruct (Nat.eqb_spec (nst s1) 0) as [Zs|Zs]; [discriminate|].
  cbn [negb]. apply lives_some. exact Zs.
Qed.

Example C84_hypotheses_met : @nls_natural float _ (NewtonNLS 20) /\ same_equations robertsF roberts_plain /\
  same_settings (default_config robertsF) (default_config roberts_plain) /\ config_ok (default_config robertsF) /\
  exists s1 s2, life roberts_ewt robertsF (default_config robertsF) [1; 0; 0]%float [-0.04; 0.04; 0]%float (Some 0.4%float) s1 /\
    life roberts_ewt roberts_plain (default_config roberts_plain) [1; 0; 0]%float [-0.04; 0.04; 0]%float (Some 0.4%float) s2 /\
    begun (trace (lp (nlp s1))) = 68 /\ begun (trace (lp (nlp s2))) = 68 /\ nge s1 = 86 /\ nge s2 = 0 /\
    get_num_err_test_fails s1 = 1.
Proof.
  split; [apply newton_natural|]. split; [repeat split|]. split; [repeat split|]. split; [unfold config_ok; cbn; lia|].
  assert (c84_test (lives_to robertsF outs_a) (lives_to roberts_plain (outs_b 39)) = true) as E by (vm_compute; reflexivity).
  assert (forall x, x = lives_to robertsF outs_a -> forall y, y = lives_to roberts_plain (outs_b 39) -> c84_test x y = true ->
    exists a b s1 s2, lives_to robertsF outs_a = Some (a, s1) /\ lives_to roberts_plain (outs_b 39) = Some (b, s2) /\
      c84_test (Some (a, s1)) (Some (b, s2)) = true) as X.
  { intros [[a s1]|] Ea [[b s2]|] Eb Et; try discriminate Et. exists a, b, s1, s2.
    split; [exact (eq_sym Ea)|]. split; [exact (eq_sym Eb)|exact Et]. }
  destruct (X _ eq_refl _ eq_refl E) as (a & b & s1 & s2 & E1 & E2 & E'). clear E X. rename E' into E. unfold c84_test in E.
  repeat (apply andb_true_iff in E as (E & ?)).
  repeat match goal with X : (_ =? _) = true |- _ => apply Nat.eqb_eq in X end.
  pose proof (lives_to_some _ _ _ _ _ _ _ E1) as ->. pose proof (lives_to_some _ _ _ _ _ _ _ E2) as ->.
  exists s1, s2. split; [apply (lives_to_life _ _ _ _ E1)|]. split; [apply (lives_to_life _ _ _ _ E2)|]. repeat (split; [assumption|]). assumption.
Qed.
