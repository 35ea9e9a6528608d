(** * PropGrid: the value at an output time does not depend on the output times
      before it: C84 (src/impl_solve.rs, src/impl_stop_test.rs) *)
Require Import List Arith Bool Lia Reals Lra.
Import ListNotations.
Require Import Verif.Base Verif.BaseFacts Verif.Scalar Verif.ScalarR Verif.Norms Verif.Newton Verif.NewtonSpec Verif.IdaState
  Verif.IdaNls Verif.IdaCore Verif.IdaRoots Verif.IdaSolve Verif.IdaIo Verif.IdaFacts Verif.IdaLoops Verif.IdaStep Verif.IdaSpec
  Verif.IdaShell Verif.IdaReach Verif.IdaInv Verif.IdaCount Verif.IdaStepR Verif.IdaCall Verif.PropStepR Verif.IdaKern Verif.IdaRuns
  Verif.IdaLives Verif.PropOutputs.
Open Scope nat_scope.

(** ** Where steps were begun: time and size of the first try of every step *)
Fixpoint starts {T} (tr : list (event T)) : list (T * T) :=
  match tr with
  | [] => []
  | e :: past =>
      match e, past with
      | CTry t h _, CBegin _ _ :: _ => (t, h) :: starts past
      | _, _ => starts past
      end
  end.

Section AnyScalar.
Context {T LSt NSt : Type} `{Scalar T} `{LSolver T LSt} `{NLSolver T NSt}.
Notation state := (ida T LSt NSt).
Notation tr st := (trace (lp (nlp st))).

(** Every step so far was begun before [tout]; [tout] has been reached. *)
Definition before (tout : T) (st : state) : Prop :=
  Forall (fun x => (szero <=? (fst x - tout) * snd x)%sc = false) (starts (own (tr st))).
Definition got_to (tout : T) (st : state) : Prop :=
  (szero <=? (get_current_time st - tout) * get_current_setp st)%sc = true.

Lemma starts_app new t h k y w past : begun new = 0 ->
  starts (new ++ @CTry T t h k :: CBegin y w :: past) = (t, h) :: starts past.
Proof.
  induction new as [|e new IH]; intros E; [reflexivity|]. rewrite begun_cons in E.
  assert (begun new = 0) as E1 by lia. specialize (IH E1).
  destruct e; try exact IH; try discriminate E.
  destruct new as [|e2 new]; [exact IH|]. destruct e2; try exact IH. rewrite begun_cons in E1. discriminate.
Qed.

Lemma starts_step (Hl : @nls_lawful T NSt _) prob (ewt_set : list T -> list T) fuel (a b : state) r : ordok a -> step prob fuel a = Ret (b, r) ->
  starts (own (tr b)) = (tn (nlp a), hh a) :: starts (own (tr a)).
Proof.
  intros O E. destruct (step_first prob Hl fuel a b r O E) as (new & Et).
  pose proof (step_spec prob Hl fuel a b r O E) as X.
  destruct (stepped_ext prob ewt_set Hl a b r O X) as (evs & cs & t & h & kq & fq & Se & Qe & _ & Ex).
  destruct Ex as (Et2 & _).
  assert (begun new = 0) as B.
  { apply (f_equal begun) in Et2. rewrite Et in Et2. rewrite !begun_app, !begun_cons, begun_app, (step_evs_begun _ _ Se), (quiet_begun _ Qe) in Et2.
    destruct r as [|[]]; cbn in Et2; lia. }
  rewrite Et. unfold begin_ev.
  change (own (new ++ CTry (tn (nlp a)) (hh a) (kk (st_init a)) :: CBegin (nth 0 (phi a) []) (ewt (nlp a)) :: tr a)) with
    (own (new ++ [CTry (tn (nlp a)) (hh a) (kk (st_init a)); CBegin (nth 0 (phi a) []) (ewt (nlp a))] ++ tr a)).
  rewrite !own_app. cbn [own filter is_root is_warn orb negb app].
  apply starts_app. rewrite begun_own. exact B.
Qed.

Section One.
Hypothesis Hn : nls_natural T NSt.
Variable ewt_set : list T -> list T.

Lemma run_starts prob (st0 : state) d : forall k s s', run ewt_set prob st0 k s -> run ewt_set prob st0 (d + S k) s' ->
  In (tn (nlp s), hh s) (starts (own (tr s'))).
Proof.
  induction d as [|d IH]; intros k s s' R R'; cbn in R'; apply run_inv in R'; destruct R' as (a & f & b & r & Ra & Wa & Ca & Sa & Ka & Oa);
    rewrite Oa, (starts_step (natural_lawful Hn) prob ewt_set f a b r Ca Sa).
  - left. destruct (run_det Hn _ _ _ _ _ _ R Ra) as (K & _). apply kcore_fields in K.
    assert (tn (nlp a) = tn (nlp s)) as -> by apply K. assert (hh a = hh s) as -> by apply K. reflexivity.
  - right. exact (IH k s a R Ra).
Qed.

End One.

(** ** C84: two lives that have just reached the same time are in the same state *)
Theorem C84_reaching_a_time : nls_natural T NSt -> forall ewt_set (p q : problem T) c d yy0 yp0 o1 o2 (s1 s2 : state) tout,
  same_equations p q -> same_settings c d -> config_ok c -> g_hin c = g_hin d ->
  IdaRuns.life ewt_set p c yy0 yp0 o1 s1 -> IdaRuns.life ewt_set q d yy0 yp0 o2 s2 ->
  sneqb (g_hin c) szero = true \/ o1 = o2 ->
  get_num_steps s1 <> 0 -> get_num_steps s2 <> 0 ->
  before tout s1 -> before tout s2 -> got_to tout s1 -> got_to tout s2 ->
  begun (tr s1) = begun (tr s2) /\ own (tr s1) = own (tr s2) /\
  (forall t a1 b1 r1 r2, get_solution p s1 t = Ret (a1, r1) -> get_solution q s2 t = Ret (b1, r2) ->
     r1 = r2 /\ (r1 = Ok tt -> get_yy a1 = get_yy b1 /\ get_yp a1 = get_yp b1)).
Proof.
  intros Hn ewt_set p q c d yy0 yp0 o1 o2 s1 s2 tout Heq Hset Hc Hh L1 L2 Ho N1 N2 B1 B2 G1 G2.
  assert (h0u s1 = h0u s2) as E0.
  { destruct Ho as [Ho|Ho]; [eapply given_first; eauto|].
    destruct (two_runs Hn ewt_set p q c d yy0 yp0 Heq Hset Hc o1 o2 s1 s2 L1 L2 N1 N2) as (_ & _ & _ & (t & E & _) & _).
    exact (same_first Hn ewt_set p q c d yy0 yp0 Heq Hset Hc o1 o2 s1 s2 L1 L2 t Hh E (eq_trans (eq_sym Ho) E) N1 N2). }
  destruct (two_runs Hn ewt_set p q c d yy0 yp0 Heq Hset Hc o1 o2 s1 s2 L1 L2 N1 N2) as (st00 & (k1 & R1) & (k2 & R2) & _).
  rewrite <- E0 in R2.
  assert (begun (tr s1) = begun (tr s2)) as Eb.
  { rewrite (run_begun Hn _ _ _ _ _ R1), (run_begun Hn _ _ _ _ _ R2).
    unfold before in B1, B2. unfold got_to, get_current_time, get_current_setp in G1, G2. rewrite Forall_forall in B1, B2.
    destruct (Nat.lt_trichotomy k1 k2) as [L|[E|L]]; [exfalso|exact E|exfalso].
    - replace k2 with ((k2 - S k1) + S k1) in R2 by lia. apply (run_starts Hn _ _ _ _ _ _ _ R1) in R2.
      specialize (B2 _ R2). cbn [fst snd] in B2. rewrite G1 in B2. discriminate.
    - replace k1 with ((k1 - S k2) + S k2) in R1 by lia. apply (run_starts Hn _ _ _ _ _ _ _ R2) in R1.
      specialize (B1 _ R1). cbn [fst snd] in B1. rewrite G2 in B1. discriminate. }
  assert (0 < begun (tr s1)) as Bp.
  { rewrite (run_begun Hn _ _ _ _ _ R1). destruct k1 as [|k1]; [|lia]. exfalso. apply N1.
    destruct (life_new_ok _ _ _ _ _ _ _ L1) as (st01 & E1). pose proof Hset as (_ & _ & _ & _ & _ & _ & _ & _ & Tc & _).
    destruct (life_sound Hn ewt_set p c yy0 yp0 Hc Tc st01 E1 o1 s1 L1) as (_ & B). destruct (B N1) as ((k & R) & _).
    apply (run_begun Hn) in R. apply (run_begun Hn) in R1. lia. }
  destruct (C84_same_number_of_steps_same_solution Hn ewt_set p q c d yy0 yp0 o1 o2 s1 s2 Heq Hset Hc Hh L1 L2 Ho Eb Bp)
    as (A & _ & _ & _ & D). split; [exact Eb|]. split; [exact A|exact D].
Qed.
End AnyScalar.
Print Assumptions C84_reaching_a_time.

(** ** Over the reals: runs through lists of output times *)
Section OverR.
Context {LSt NSt : Type} `{LSolver R LSt} `{NLSolver R NSt}.
Notation state := (ida R LSt NSt).
Notation tr st := (trace (lp (nlp st))).
Open Scope R_scope.

(** A step keeps the direction. *)
Lemma dbl_sign hi h : h <> 0 -> 0 < h * dbl hi h.
Proof.
  intros Hh. pose proof (sq_pos _ Hh) as P. unfold dbl. cbn [sabs smul stwo sltb sdiv sone ScalarR].
  destruct (Rltb 1 (Rabs (2 * h) * hi)) eqn:L; [apply Rltb_true in L|nra].
  replace (h * (2 * h / (Rabs (2 * h) * hi))) with (2 * (h * h) * / (Rabs (2 * h) * hi)) by (unfold Rdiv; ring).
  apply Rmult_lt_0_compat; [lra|]. apply Rinv_0_lt_compat. lra.
Qed.

Lemma next_h_sign hi h h' : h <> 0 -> next_h hi h h' -> 0 < h * h'.
Proof.
  intros Hh N. pose proof (sq_pos _ Hh) as P. destruct N as [-> |[-> |(r & _ & ->)]]; [exact P|apply dbl_sign; exact Hh|].
  cbn [smul smax smin shalf spt9 ScalarR].
  assert (0 < Rmax (/ 2) (Rmin r (9 / 10))) as Q by (apply Rlt_le_trans with (/ 2); [lra|apply Rmax_l]).
  set (q := Rmax _ _) in *. clearbody q. replace (h * (h * q)) with (h * h * q) by ring. apply Rmult_lt_0_compat; assumption.
Qed.

Lemma sign_trans a b c : 0 < a * b -> 0 < b * c -> 0 < a * c.
Proof. intros A B. destruct (same_sign_cases _ _ A) as [(?&?)|(?&?)], (same_sign_cases _ _ B) as [(?&?)|(?&?)]; nra. Qed.
Lemma sign_ne a b : 0 < a * b -> b <> 0.
Proof. intros A ->. lra. Qed.

Lemma tries_sign prob t0 (st0 sta : state) nef : tries prob t0 st0 sta nef -> hh st0 <> 0 -> 0 < hh st0 * hh sta.
Proof.
  induction 1 as [|st nef st1 ck ek ek1 st' Ht IH Et Htr Hn Hrt]; intros Hz; [apply sq_pos; exact Hz|].
  specialize (IH Hz). pose proof (tr_h _ _ _ _ _ Htr) as Th. injection Th as E1 _ _.
  apply (sign_trans _ _ _ IH). pose proof (sign_ne _ _ IH) as Hz1. pose proof (sq_pos _ Hz1) as P.
  rewrite (rt_hh _ _ _ _ _ Hrt), E1. cbn [smul ScalarR].
  assert (0 < rr st') as Q.
  { destruct nef as [|nef].
    - destruct (rt_rr0 _ _ _ _ _ Hrt eq_refl) as (r & ->). cbn [smax squarter ScalarR]. apply Rlt_le_trans with (/ 4); [lra|apply Rmax_l].
    - rewrite (rt_rr1 _ _ _ _ _ Hrt) by lia. cbn. lra. }
  replace (hh st * (hh st * rr st')) with (hh st * hh st * rr st') by ring. apply Rmult_lt_0_compat; assumption.
Qed.

Lemma stepped_sign prob (st st' : state) r : ordok st -> hh st <> 0 -> stepped prob st st' r -> 0 < hh st * hh st'.
Proof.
  intros Ho Hz (sta & nef & st1 & ck & ek & ek1 & r1 & Ht & Et & Htr & Hc).
  assert (hh (st_init st) = hh st) as E0 by apply (init_fields st).
  pose proof (tries_sign _ _ _ _ _ Ht ltac:(rewrite E0; exact Hz)) as S1. rewrite E0 in S1.
  pose proof (tr_h _ _ _ _ _ Htr) as Th. injection Th as E1 _ _.
  destruct Hc as [(_ & _ & st2 & Hcp & ->)|(e & _ & Hg & _)].
  - apply (sign_trans _ _ _ S1). change (hh (st_commit prob ck st2)) with (hh st2). rewrite <- E1.
    eapply next_h_sign; [|apply (cp_hh _ _ _ Hcp)]. rewrite E1. exact (sign_ne _ _ S1).
  - pose proof (gu_keep _ _ _ _ Hg) as K. injection K. intros. replace (hh st') with (hh sta) by congruence. exact S1.
Qed.

Variable ewt_set : list R -> list R.
Hypothesis Hn : nls_natural R NSt.

(** Everything begun so far went in the direction of [e] and before [tout]. *)
Record ahead (e tout : R) (st : state) : Prop := mkahead {
  ah_hh : 0 < e * hh st;
  ah_dirs : Forall (fun x => 0 < e * snd x) (starts (own (tr st)));
  ah_before : Forall (fun x => 0 < (tout - fst x) * e) (starts (own (tr st))) }.

Lemma ahead_shell prob e tout (a b : state) : shell prob a b -> tstop a = None -> ahead e tout a -> ahead e tout b.
Proof.
  intros S Et [A1 A2 A3]. destruct (shell_kcore _ _ _ S Et) as (K & O).
  assert (hh b = hh a) as Eh by (apply kcore_fields in K; apply K). split; rewrite ?Eh, ?O; assumption.
Qed.

Lemma solve_loop_ahead prob e fuel rfuel tout (st st' : state) tret nl t r :
  ordok st -> tstop st = None -> ahead e tout st -> 0 < (tout - tn (nlp st)) * e ->
  solve_loop prob ewt_set fuel rfuel st tout tret Normal nl = Ret (st', t, r) ->
  ahead e tout st' /\ ((exists x, r = Ok x) -> nst st' <> 0%nat).
Proof.
  intros O Et A P E.
  cut (let I := fun (s : state) => ordok s /\ tstop s = None /\ ahead e tout s /\ 0 < (tout - tn (nlp s)) * e in I st ->
    ahead e tout st' /\ ((exists x, r = Ok x) -> nst st' <> 0%nat)); [cbv zeta; tauto|]. clear O Et A P. intros I HI.
  revert HI E.
  apply (solve_loop_ind prob ewt_set (fun s _ _ => I s) (fun s t r => ahead e tout s /\ ((exists x, r = Ok x) -> nst s <> 0%nat))).
  - intros s n1 t1 s' t' r' (O & Et & A & P) E. apply pre_step_shell in E. destruct E as (S & _ & Er).
    split; [exact (ahead_shell _ _ _ _ _ S Et A)|]. intros (x & ->).
    destruct Er as [(D & _)|(_ & [D|D])]; discriminate.
  - intros s n1 t1 s1 s2 er s' t' r' (O & Et & A & P) E1 E2 E3.
    apply pre_step_shell in E1. destruct E1 as (S & _ & _).
    pose proof (ahead_shell _ _ _ _ _ S Et A) as A1. pose proof (shell_ord _ _ _ S O) as O1.
    destruct (shell_kcore _ _ _ S Et) as (K & _).
    pose proof (step_spec prob (natural_lawful Hn) _ _ _ _ O1 E2) as X.
    pose proof (starts_step (natural_lawful Hn) prob ewt_set _ _ _ _ O1 E2) as Ss.
    assert (tn (nlp s1) = tn (nlp s)) as Etn by (apply kcore_fields in K; apply K).
    apply step_failed_shell in E3. destruct E3 as (S3 & -> & _).
    assert (tstop s2 = None) as Et2.
    { destruct (stepped_ord prob _ _ _ O1 X) as (_ & _ & U & _). unfold outer in U.
      assert (tstop s1 = tstop s) as Q by (apply kcore_outer in K; apply K). injection U. intros. congruence. }
    split; [|intros (x & D); discriminate]. apply (ahead_shell _ _ _ _ _ S3 Et2).
    assert (0 < hh s1 * hh s2) as Sg by (eapply stepped_sign; [exact O1|exact (sign_ne _ _ (ah_hh _ _ _ A1))|exact X]).
    split.
    + exact (sign_trans _ _ _ (ah_hh _ _ _ A1) Sg).
    + rewrite Ss. constructor; [exact (ah_hh _ _ _ A1)|exact (ah_dirs _ _ _ A1)].
    + rewrite Ss. constructor; [cbn; rewrite Etn; exact P|exact (ah_before _ _ _ A1)].
  - intros s n1 t1 s1 s2 u s' t' r' (O & Et & A & P) E1 E2 E3.
    apply pre_step_shell in E1. destruct E1 as (S & _ & _).
    pose proof (ahead_shell _ _ _ _ _ S Et A) as A1. pose proof (shell_ord _ _ _ S O) as O1.
    destruct (shell_kcore _ _ _ S Et) as (K & _).
    pose proof (step_spec prob (natural_lawful Hn) _ _ _ _ O1 E2) as X.
    pose proof (starts_step (natural_lawful Hn) prob ewt_set _ _ _ _ O1 E2) as Ss.
    assert (tn (nlp s1) = tn (nlp s)) as Etn by (apply kcore_fields in K; apply K).
    destruct (stepped_ord prob _ _ _ O1 X) as (O2 & _ & U & _ & N2).
    assert (tstop s2 = None) as Et2.
    { unfold outer in U. assert (tstop s1 = tstop s) as Q by (apply kcore_outer in K; apply K). injection U. intros. congruence. }
    assert (0 < hh s1 * hh s2) as Sg by (eapply stepped_sign; [exact O1|exact (sign_ne _ _ (ah_hh _ _ _ A1))|exact X]).
    assert (ahead e tout s2) as A2.
    { split.
      + exact (sign_trans _ _ _ (ah_hh _ _ _ A1) Sg).
      + rewrite Ss. constructor; [exact (ah_hh _ _ _ A1)|exact (ah_dirs _ _ _ A1)].
      + rewrite Ss. constructor; [cbn; rewrite Etn; exact P|exact (ah_before _ _ _ A1)]. }
    apply post_step_shell in E3. destruct E3 as (s3 & S3 & E3).
    pose proof (ahead_shell _ _ _ _ _ S3 Et2 A2) as A3. pose proof (shell_ord _ _ _ S3 O2) as O3.
    destruct (shell_kcore _ _ _ S3 Et2) as (K3 & _). destruct (kcore_outer _ _ K3) as (Et3 & _ & N3). rewrite Et2 in Et3.
    destruct E3 as [(-> & L & _ & _ & Past)|(Hr & S4)].
    + apply lims_none in L; [|exact Et3]. subst s'. split; [|intros D; exfalso; apply D; reflexivity]. intros _.
      split; [exact O3|]. split; [exact Et3|]. split; [exact A3|].
      cbn [sleb szero smul ssub ScalarR] in Past. apply Rleb_false in Past.
      pose proof (ah_hh _ _ _ A3) as Q.
      destruct (same_sign_cases _ _ Q) as [(?&?)|(?&?)]; nra.
    + split; [intros D; contradiction|]. intros _.
      assert (shell prob s3 s') as S5.
      { destruct S4 as [S4|(s4 & L & S4)]; [exact S4|]. apply lims_none in L; [|exact Et3]. subst s4. exact S4. }
      split; [exact (ahead_shell _ _ _ _ _ S5 Et3 A3)|]. intros _.
      destruct (shell_kcore _ _ _ S5 Et3) as (K5 & _). destruct (kcore_outer _ _ K5) as (_ & _ & N5). lia.
Qed.


Lemma starts_none (l : list (event R)) : begun l = 0%nat -> starts l = [].
Proof.
  induction l as [|x l IH]; [reflexivity|]. rewrite begun_cons. intros E. assert (begun l = 0%nat) as E1 by lia.
  specialize (IH E1). destruct x; try exact IH. destruct l as [|y l]; [exact IH|]. destruct y; try exact IH. rewrite begun_cons in E1. discriminate.
Qed.

Lemma ahead_later e t t' (st : state) : 0 <= (t' - t) * e -> ahead e t st -> ahead e t' st.
Proof.
  intros L [A1 A2 A3]. split; [exact A1|exact A2|]. eapply Forall_impl; [|exact A3]. intros x Hx. cbv beta in Hx |- *. nra.
Qed.

Section OneLife.
Variable prob : problem R.
Variable c : @config R.
Variables yy0 yp0 : list R.
Hypothesis Hc : config_ok c.
Hypothesis Hts : g_tstop c = None.
Notation life := (IdaRuns.life ewt_set prob c yy0 yp0).

Lemma solve_ahead e o (st st' : state) fuel rfuel tout tret t x :
  life o st -> (nst st = 0%nat -> 0 < (tout - g_t0 c) * e) -> (nst st <> 0%nat -> ahead e tout st) ->
  solve prob ewt_set fuel rfuel st tout tret Normal = Ret (st', t, Ok x) ->
  ahead e tout st' /\ nst st' <> 0%nat.
Proof.
  intros L Hz Hnz E.
  destruct (life_new_ok ewt_set prob c yy0 yp0 o st L) as (st00 & H00).
  pose proof (life_sound Hn ewt_set prob c yy0 yp0 Hc Hts st00 H00 o st L) as IH.
  pose proof (reach_ord prob ewt_set (natural_lawful Hn) c yy0 yp0 st Hc (life_reach _ _ _ _ _ o st L)) as O.
  assert (tn (nlp (IdaRuns.base c st00)) = g_t0 c) as Tb.
  { clear - H00. revert H00. unfold ida_new, IdaRuns.base. destruct (_ && _); [|discriminate]. intros E0. injection E0 as <-. reflexivity. }
  assert (nst st = 0%nat -> tn (nlp st) = g_t0 c) as T0.
  { intros Z. destruct IH as (A & _). destruct (A Z) as (K & _). apply (pre_fields prob c yy0 yp0 Hts st00 H00) in K.
    rewrite <- Tb. apply K. }
  assert (tstop st = None) as Et.
  { destruct (Nat.eq_dec (nst st) 0) as [Z|Z].
    - destruct IH as (A & _). destruct (A Z) as (K & _). apply (pre_fields prob c yy0 yp0 Hts st00 H00) in K. apply K.
    - destruct IH as (_ & B). destruct (B Z) as ((k1 & R) & _). apply (run_tstop Hn ewt_set prob c yy0 yp0 Hts st00 H00) in R. apply R. }
  rewrite solve_unfold in E.
  set (st1 := set_taskc Normal (set_toutc tout st)) in *.
  assert (shell prob st st1) as S1 by exact (task_shell prob st tout Normal).
  assert (sound ewt_set prob c yy0 st00 o st1) as IH1.
  { apply (shell_sound ewt_set prob c yy0 st00 o st st1 S1 Et); [reflexivity|reflexivity|exact IH]. }
  assert (nst st1 = nst st) as En by reflexivity. assert (tn (nlp st1) = tn (nlp st)) as Etn by reflexivity.
  assert (ordok st1) as O1 by exact (shell_ord _ _ _ S1 O).
  assert (tstop st1 = None) as Et1 by exact Et.
  assert (nst st1 <> 0%nat -> ahead e tout st1) as Hnz1.
  { intros D. apply (ahead_shell _ _ _ _ _ S1 Et). apply Hnz. rewrite <- En. exact D. }
  clearbody st1. apply bind_ret_inv in E. destruct E as (y & Es & E).
  apply solve_start_cases in Es.
  destruct Es as [(Z & s1 & m & Ef & ->)|[(Z & s1 & l & Ef & Zs & _ & Sl & ->)|(Z & l & _ & Sl & El)]].
  - discriminate E.
  - assert (sound ewt_set prob c yy0 st00 None st1) as IH2 by (split; [apply IH1|intros D; contradiction]).
    pose proof (first_sound ewt_set prob c yy0 yp0 Hts st00 H00 st1 tout _ IH2 Z Ef) as (R & F & N & W & Ts). cbv beta iota in R, F, N, W, Ts.
    pose proof (first_ord prob ewt_set st1 tout _ Z Ef O1) as Os. cbv beta iota in E.
    destruct (first_call_R prob ewt_set st1 s1 tout Ef) as (_ & Sg & _).
    assert (nst st = 0%nat) as Z0 by congruence. specialize (T0 Z0). specialize (Hz Z0). rewrite Etn, T0 in Sg.
    assert (tn (nlp s1) = g_t0 c) as Tn1.
    { inversion R as [s2 K Ow|]; subst. apply kcore_fields in K.
      assert (tn (nlp s1) = tn (nlp (IdaRuns.start prob c st00 (h0u s1)))) as -> by apply K. exact Tb. }
    assert (ahead e tout s1) as A.
    { assert (starts (own (tr s1)) = []) as E0 by (apply starts_none; rewrite begun_own; exact (run_begun Hn _ _ _ _ _ R)).
      split; rewrite ?E0; try constructor. destruct (same_sign_cases _ _ Sg) as [(?&?)|(?&?)]; nra. }
    refine (let '(conj A' N') := solve_loop_ahead prob e _ _ _ _ _ _ _ _ _ (shell_ord _ _ _ Sl Os) _ (ahead_shell _ _ _ _ _ Sl Ts A) _ E in
            conj A' (N' (ex_intro _ _ eq_refl))).
    + exact Ts.
    + change (tn (nlp (on_lp (fun _ => l) s1))) with (tn (nlp s1)). rewrite Tn1. exact Hz.
  - specialize (Hnz1 Z). pose proof (ahead_shell _ _ _ _ _ Sl Et1 Hnz1) as A2. pose proof (shell_ord _ _ _ Sl O1) as O2.
    destruct (shell_kcore _ _ _ Sl Et1) as (K2 & _). destruct (kcore_outer _ _ K2) as (Et2 & _ & N2). rewrite Et1 in Et2.
    apply later_call_shell in El. destruct y as [[[s0 t0] r0]|[s0 t0]].
    + injection E as <- <- ->. destruct El as (_ & S3). split; [exact (ahead_shell _ _ _ _ _ S3 Et2 A2)|].
      destruct (shell_kcore _ _ _ S3 Et2) as (K3 & _). destruct (kcore_outer _ _ K3) as (_ & _ & N3). rewrite N3, N2. exact Z.
    + destruct El as (-> & s2 & S3 & _ & Lm & Past). specialize (Past eq_refl).
      pose proof (ahead_shell _ _ _ _ _ S3 Et2 A2) as A3. pose proof (shell_ord _ _ _ S3 O2) as O3.
      destruct (shell_kcore _ _ _ S3 Et2) as (K3 & _). destruct (kcore_outer _ _ K3) as (Et3 & _ & N3). rewrite Et2 in Et3.
      apply lims_none in Lm; [|exact Et3]. subst s0.
      cbn [sleb szero smul ssub ScalarR] in Past. apply Rleb_false in Past.
      assert (0 < (tout - tn (nlp s2)) * e) as P.
      { pose proof (ah_hh _ _ _ A3) as Q. destruct (same_sign_cases _ _ Q) as [(?&?)|(?&?)]; nra. }
      destruct (solve_loop_ahead prob e _ _ _ _ _ _ _ _ _ O3 Et3 A3 P E) as (A' & N'). split; [exact A'|]. apply N'. eexists. reflexivity.
Qed.

(** Calls of [solve] that return normally, the newest output time first. *)
Inductive calls : list R -> state -> Prop :=
| calls_new st : ida_new prob yy0 yp0 = Ret st -> calls [] (configure c st)
| calls_next ts st fuel rfuel tout tret st' t x :
    calls ts st -> solve prob ewt_set fuel rfuel st tout tret Normal = Ret (st', t, Ok x) -> calls (tout :: ts) st'.

(** The output times start after the initial time [t0] and never go back. *)
Fixpoint in_order (e t0 : R) (ts : list R) : Prop :=
  match ts with
  | [] => True
  | tout :: past => match past with [] => 0 < (tout - t0) * e | prev :: _ => 0 <= (tout - prev) * e end /\ in_order e t0 past
  end.

Definition first_of (ts : list R) : option R := match ts with [] => None | x :: l => Some (last l x) end.

Lemma calls_reach ts (st : state) : calls ts st -> reach prob ewt_set c yy0 yp0 st.
Proof.
  induction 1 as [st E|ts st fuel rfuel tout tret st' t x C IH E]; [apply reach_new; exact E|].
  apply (reach_call _ _ _ _ _ fuel rfuel st (CallSolve tout tret Normal) st' (ReplySolve t (Ok x)) IH). cbn [api_call]. rewrite E. reflexivity.
Qed.

Lemma calls_ahead e ts (st : state) : calls ts st -> in_order e (g_t0 c) ts ->
  life (first_of ts) st /\ (ts = [] -> nst st = 0%nat) /\
  (forall tout past, ts = tout :: past -> nst st <> 0%nat /\ ahead e tout st).
Proof.
  induction 1 as [st E|ts st fuel rfuel tout tret st' t x C IH E]; intros Ho.
  - split; [apply life_new; exact E|]. split; [|discriminate]. intros _. apply new_fields in E. apply E.
  - destruct Ho as (P & Ho). destruct (IH Ho) as (L & Z & A).
    assert (ahead e tout st' /\ nst st' <> 0%nat) as (A' & N').
    { destruct ts as [|prev past].
      - eapply (solve_ahead e _ st); eauto. intros D. exfalso. apply D. apply Z. reflexivity.
      - destruct (A prev past eq_refl) as (N1 & A1). eapply (solve_ahead e _ st); eauto; [intros D; contradiction|].
        intros _. exact (ahead_later _ _ _ _ P A1). }
    split; [|split; [discriminate|intros ? ? [= <- <-]; auto]].
    assert (api_call prob ewt_set fuel rfuel st (CallSolve tout tret Normal) = Ret (st', ReplySolve t (Ok x))) as E'
      by (cbn [api_call]; rewrite E; reflexivity).
    pose proof (life_call _ _ _ _ _ fuel rfuel _ st _ st' _ L E' (fun D => False_ind _ (N' D))) as L'.
    cbn [first_tout] in L'. replace (first_of (tout :: ts)) with (if ((nst st =? 0)%nat && negb (nst st' =? 0)%nat)%bool then Some tout else first_of ts); [exact L'|].
    apply Nat.eqb_neq in N' as Nb. rewrite Nb. destruct ts as [|prev past].
    + rewrite (Z eq_refl). reflexivity.
    + destruct (A prev past eq_refl) as (N1 & _). apply Nat.eqb_neq in N1. rewrite N1. cbn [andb first_of last].
      clear. f_equal. revert prev tout. induction past as [|a l IH]; intros; [reflexivity|]. cbn [last] in *.
      destruct l; [reflexivity|]. apply IH.
Qed.

End OneLife.

Lemma ahead_before e tout (st : state) : ahead e tout st -> before tout st.
Proof.
  intros [A1 A2 A3]. unfold before. rewrite Forall_forall in *. intros x Hx. specialize (A2 x Hx). specialize (A3 x Hx). cbv beta in A2, A3.
  cbn [sleb szero smul ssub ScalarR]. apply Rleb_false. destruct (same_sign_cases _ _ A2) as [(?&?)|(?&?)]; nra.
Qed.

(** ** C84: the solution at an output time does not depend on the output times before it *)
Theorem C84_output_at_a_time (p q : problem R) c d yy0 yp0 e ts1 ts2 tout (s1 s1' s2 s2' : state) f1 g1 f2 g2 r1 r2 t1 t2 :
  same_equations p q -> same_settings c d -> config_ok c -> config_ok d -> g_hin c = g_hin d ->
  calls p c yy0 yp0 ts1 s1 -> calls q d yy0 yp0 ts2 s2 ->
  in_order e (g_t0 c) (tout :: ts1) -> in_order e (g_t0 c) (tout :: ts2) ->
  g_hin c <> 0 \/ first_of (tout :: ts1) = first_of (tout :: ts2) ->
  solve p ewt_set f1 g1 s1 tout r1 Normal = Ret (s1', t1, Ok Success) ->
  solve q ewt_set f2 g2 s2 tout r2 Normal = Ret (s2', t2, Ok Success) ->
  tout <> tretlast s1 -> tout <> tretlast s2 ->
  t1 = tout /\ t2 = tout /\ get_yy s1' = get_yy s2' /\ get_yp s1' = get_yp s2' /\
  own (tr s1') = own (tr s2').
Proof.
  intros Heq Hset Hc Hd Hh C1 C2 P1 P2 Hf E1 E2 D1 D2.
  pose proof Hset as (_ & _ & _ & _ & _ & T0 & _ & _ & Tc & Td). rewrite T0 in P2.
  destruct (calls_ahead p c yy0 yp0 Hc Tc e _ s1' (calls_next _ _ _ _ _ _ _ _ _ _ _ _ _ C1 E1) P1) as (L1 & _ & A1).
  destruct (calls_ahead q d yy0 yp0 Hd Td e _ s2' (calls_next _ _ _ _ _ _ _ _ _ _ _ _ _ C2 E2) P2) as (L2 & _ & A2).
  destruct (A1 _ _ eq_refl) as (N1 & B1). destruct (A2 _ _ eq_refl) as (N2 & B2).
  destruct (calls_ahead p c yy0 yp0 Hc Tc e _ s1 C1 (proj2 P1)) as (M1 & _).
  destruct (calls_ahead q d yy0 yp0 Hd Td e _ s2 C2 (proj2 P2)) as (M2 & _).
  destruct (C45_outputs_at_tout p ewt_set (natural_lawful Hn) c yy0 yp0 s1 f1 g1 tout r1 s1' t1 Hc (life_reach _ _ _ _ _ _ _ M1) E1)
    as (T1 & _ & [(X & _)|(G1 & a1 & Ea & Ya & Yap)]); [contradiction|].
  destruct (C45_outputs_at_tout q ewt_set (natural_lawful Hn) d yy0 yp0 s2 f2 g2 tout r2 s2' t2 Hd (life_reach _ _ _ _ _ _ _ M2) E2)
    as (T2 & _ & [(X & _)|(G2 & a2 & Eb & Yb & Ybp)]); [contradiction|].
  destruct (C84_reaching_a_time Hn ewt_set p q c d yy0 yp0 _ _ s1' s2' tout Heq Hset Hc Hh L1 L2) as (_ & Ow & Sol); auto.
  - destruct Hf as [Hf|Hf]; [left|right; exact Hf]. unfold sneqb. cbn [seqb szero ScalarR]. destruct (Reqb (g_hin c) 0) eqn:Q; [apply Reqb_true in Q; contradiction|reflexivity].
  - exact (ahead_before _ _ _ B1).
  - exact (ahead_before _ _ _ B2).
  - unfold got_to. apply Rleb_true. exact G1.
  - unfold got_to. apply Rleb_true. exact G2.
  - split; [exact T1|]. split; [exact T2|]. destruct (Sol tout a1 a2 _ _ Ea Eb) as (_ & Y). destruct (Y eq_refl) as (Y1 & Y2).
    split; [congruence|]. split; [congruence|exact Ow].
Qed.

End OverR.
Print Assumptions C84_output_at_a_time.

(** ** Hypotheses met *)
Require Import Floats Verif.ScalarF Verif.NormsR Verif.IdaAccept Verif.IdaTrace Verif.PropExact Verif.PropLinear Verif.Witness.
(** Over the reals: the run of C77 with other output times on the way. *)
Section Lin2.
Notation ewl := (ewt_set_ss (/ 10000) (/ 1000000)).
Notation cfl := (default_config lin2).
Open Scope R_scope.

Lemma lin2_outputs : exists st0 : ida R (list nat) (newton R),
  @ida_new R (list nat) (newton R) _ _ (NewtonNLS 1) lin2 [0; 0] [1; 2] = Ret st0 /\
  forall rest, PropLinear.onward 1 1 rest -> Forall (fun t => 0 <= t <= 10) rest ->
  exists K, forall rfuel, (K <= rfuel)%nat ->
    outputs lin2 ewl 1 501 rfuel (configure cfl st0) 0 (1 :: rest) =
    Ret (map (fun t => (t, Ok Success, affine 2 lin_a lin_b t, rates 2 lin_b)) (1 :: rest)).
Proof.
  destruct C76_hypotheses_met as (st0 & Hm & Hs & Hg & He & Hj & _ & En & _). exists st0.
  assert (Ea : affine 2 lin_a lin_b 0 = [0; 0]) by (cbn; unfold lin_a; repeat (f_equal; try ring)).
  split; [rewrite <- En; rewrite Ea; reflexivity|]. intros rest Ho Hb.
  destruct (C77_all_outputs_dense lin2 1 lin_a lin_b cfl (/ 10000) (/ 1000000) st0 501 0 1 rest) as (K & E);
    try assumption; try reflexivity; try (cbn; lia).
  - unfold eps. cbn. lra.
  - lra.
  - split; [cbn; lra|]. cbn [g_t0 default_config]. change (@szero R _) with 0. rewrite Rabs_R0, Rminus_0_r, Rabs_R1. unfold eps. cbn. lra.
  - change (g_t0 cfl) with 0. rewrite Rminus_0_r. exact Ho.
  - intros t It. change (g_mxstep cfl - 1)%nat with 499%nat. change (g_t0 cfl) with 0. rewrite !Rminus_0_r, Rabs_R1.
    assert (Ht : 0 <= t <= 10) by (destruct It as [<-|It]; [lra|rewrite Forall_forall in Hb; apply Hb; exact It]).
    rewrite (Rabs_right t) by lra. pose proof pow_499 as P.
    assert (Pn : 10 ^ 9 = 1000000000) by (cbn; lra). rewrite Pn in P.
    pose proof lin2_rates_norm as Q. split; [lra|].
    change (wrms_norm (g_idv cfl) (rates (model_size lin2) lin_b) _ (g_suppressalg cfl))
      with (wrms_norm (repeat false 2) (rates 2 lin_b) (ewl (affine 2 lin_a lin_b 0)) false).
    set (w := wrms_norm _ _ _ _) in *. assert (0 <= w) by apply wrms_norm_nonneg. apply Rle_trans with 1000000000; [nra|exact P].
  - exists K. exact E.
Qed.

Notation NS1 := (NewtonNLS (T:=R) 1).
Lemma outputs_calls fuel rfuel : forall touts (st : ida R (list nat) (newton R)) past tret l tout,
  @calls _ _ _ NS1 ewl lin2 cfl [0; 0] [1; 2] past st -> (forall x l, past = x :: l -> tretlast st = x) ->
  outputs lin2 ewl 1 fuel rfuel st tret (touts ++ [tout]) = Ret l -> map (fun x => snd (fst (fst x))) l = map (fun _ => Ok Success) (touts ++ [tout]) ->
  exists s s' r t, @calls _ _ _ NS1 ewl lin2 cfl [0; 0] [1; 2] (rev touts ++ past) s /\
    @solve R _ _ _ _ NS1 lin2 ewl fuel rfuel s tout r Normal = Ret (s', t, Ok Success) /\
    (forall x l, rev touts ++ past = x :: l -> tretlast s = x).
Proof.
  induction touts as [|x touts IH]; intros st past tret l tout C Ht E M; cbn [app outputs] in E; apply bind_ret_inv in E;
    destruct E as ([[s' t] r] & E & E'); apply bind_ret_inv in E'; destruct E' as (l' & E' & Er); injection Er as <-; injection M as -> M.
  - exists st, s', tret, t. auto.
  - destruct (IH s' (x :: past) t l' tout) as (a & b & c & d & A & B & Tr); [eapply calls_next; eassumption| |exact E'|exact M|].
    + intros y k [= <- <-]. apply (C45_outputs_at_tout lin2 ewl (@newton_lawful R _ 1) cfl [0; 0] [1; 2] st fuel rfuel x tret s' t); [|eapply calls_reach; exact C|exact E].
      unfold config_ok. cbn. lia.
    + exists a, b, c, d. cbn [rev]. rewrite <- app_assoc. auto.
Qed.

Example C84_output_hypotheses_met : exists s1 s1' s2 s2' r1 r2 t1 t2 g,
  nls_natural R (newton R) (NS := NS1) /\ same_equations lin2 lin2 /\ same_settings cfl cfl /\ config_ok cfl /\
  @calls _ _ _ NS1 ewl lin2 cfl [0; 0] [1; 2] [2; 1] s1 /\ @calls _ _ _ NS1 ewl lin2 cfl [0; 0] [1; 2] [9; 6; 3; 1] s2 /\
  in_order 1 (g_t0 cfl) [10; 2; 1] /\ in_order 1 (g_t0 cfl) [10; 9; 6; 3; 1] /\ first_of [10; 2; 1] = first_of [10; 9; 6; 3; 1] /\
  @solve R _ _ _ _ NS1 lin2 ewl 501 g s1 10 r1 Normal = Ret (s1', t1, Ok Success) /\
  @solve R _ _ _ _ NS1 lin2 ewl 501 g s2 10 r2 Normal = Ret (s2', t2, Ok Success) /\
  10 <> tretlast s1 /\ 10 <> tretlast s2.
Proof.
  destruct lin2_outputs as (st0 & E0 & X).
  destruct (X [2; 10]) as (K1 & O1); [cbn; lra|repeat constructor; lra|].
  destruct (X [3; 6; 9; 10]) as (K2 & O2); [cbn; lra|repeat constructor; lra|].
  specialize (O1 (max K1 K2) ltac:(lia)). specialize (O2 (max K1 K2) ltac:(lia)).
  destruct (outputs_calls 501 (max K1 K2) [1; 2] _ [] 0 _ 10 (calls_new _ _ _ _ _ st0 E0) ltac:(discriminate) O1 eq_refl) as (s1 & s1' & r1 & t1 & C1 & E1 & T1).
  destruct (outputs_calls 501 (max K1 K2) [1; 3; 6; 9] _ [] 0 _ 10 (calls_new _ _ _ _ _ st0 E0) ltac:(discriminate) O2 eq_refl) as (s2 & s2' & r2 & t2 & C2 & E2 & T2).
  exists s1, s1', s2, s2', r1, r2, t1, t2, (max K1 K2).
  split; [apply newton_natural|]. split; [repeat split|]. split; [repeat split|]. split; [unfold config_ok; cbn; lia|].
  split; [exact C1|]. split; [exact C2|]. split; [cbn; lra|]. split; [cbn; lra|]. split; [reflexivity|].
  split; [exact E1|]. split; [exact E2|]. rewrite (T1 2 [1] eq_refl), (T2 9 [6; 3; 1] eq_refl). split; lra.
Qed.
End Lin2.

(** Over binary64: Robertson's problem with and without its root functions. *)
Section Floats.
Set Warnings "-inexact-float".
Local Open Scope float_scope.
Definition grid_a : list (@call float) := [CallSolve 0.4 0 Normal; CallSolve 0.4 0 Normal; CallSolve 40 0 Normal].
Definition grid_b : list (@call float) :=
  [CallSolve 0.4 0 Normal; CallSolve 1 0 Normal; CallGetDky 1 1; CallSolve 4 0 Normal; CallSolve 20 0 Normal; CallSolve 40 0 Normal].
Definition grid_ok (st : fstate) : bool :=
  forallb (fun x => negb (szero <=? (fst x - 40) * snd x)%sc) (starts (own (trace (lp (nlp st))))) &&
  (szero <=? (get_current_time st - 40) * get_current_setp st)%sc && (begun (trace (lp (nlp st))) =? 68)%nat && (get_num_steps st =? 68)%nat.
End Floats.
Definition grid_test (x y : option (option float * fstate)) : bool :=
  match x, y with
  | Some (_, s), Some (_, s') => grid_ok s && grid_ok s'
  | _, _ => false
  end.

Lemma grid_ok_spec st : grid_ok st = true -> before 40%float st /\ got_to 40%float st /\ begun (trace (lp (nlp st))) = 68%nat /\ get_num_steps st <> 0%nat.
Proof.
  unfold grid_ok. intros E. repeat (apply andb_true_iff in E as (E & ?)). split.
  - unfold before. rewrite forallb_forall in E. rewrite Forall_forall. intros x Hx. apply E in Hx. apply negb_true_iff in Hx. exact Hx.
  - split; [assumption|]. split; [apply Nat.eqb_eq; assumption|]. intros D. rewrite D in *. discriminate.
Qed.

Example C84_reaching_hypotheses_met : @nls_natural float _ (NewtonNLS 20) /\ same_equations robertsF roberts_plain /\
  same_settings (default_config robertsF) (default_config roberts_plain) /\ config_ok (default_config robertsF) /\
  exists s1 s2, IdaRuns.life roberts_ewt robertsF (default_config robertsF) [1; 0; 0]%float [-0.04; 0.04; 0]%float (Some 0.4%float) s1 /\
    IdaRuns.life roberts_ewt roberts_plain (default_config roberts_plain) [1; 0; 0]%float [-0.04; 0.04; 0]%float (Some 0.4%float) s2 /\
    before 40%float s1 /\ got_to 40%float s1 /\ get_num_steps s1 <> 0%nat /\
    before 40%float s2 /\ got_to 40%float s2 /\ get_num_steps s2 <> 0%nat.
Proof.
  split; [apply newton_natural|]. split; [repeat split|]. split; [repeat split|]. split; [unfold config_ok; cbn; lia|].
  assert (grid_test (lives_to robertsF grid_a) (lives_to roberts_plain grid_b) = true) as E by (vm_compute; reflexivity).
  assert (forall x, x = lives_to robertsF grid_a -> forall y, y = lives_to roberts_plain grid_b -> grid_test x y = true ->
    exists a b s1 s2, lives_to robertsF grid_a = Some (a, s1) /\ lives_to roberts_plain grid_b = Some (b, s2) /\
      grid_ok s1 = true /\ grid_ok s2 = true) as X.
  { intros [[a s1]|] Ea [[b s2]|] Eb Et; try discriminate Et. exists a, b, s1, s2. unfold grid_test in Et. apply andb_true_iff in Et.
    split; [exact (eq_sym Ea)|]. split; [exact (eq_sym Eb)|exact Et]. }
  destruct (X _ eq_refl _ eq_refl E) as (a & b & s1 & s2 & E1 & E2 & G1 & G2). clear E X.
  pose proof (lives_to_some _ _ _ _ _ _ _ E1) as ->. pose proof (lives_to_some _ _ _ _ _ _ _ E2) as ->.
  apply grid_ok_spec in G1 as (A1 & A2 & _ & A3). apply grid_ok_spec in G2 as (B1 & B2 & _ & B3).
  exists s1, s2. split; [apply (lives_to_life _ _ _ _ E1)|]. split; [apply (lives_to_life _ _ _ _ E2)|]. repeat (split; [assumption|]). assumption.
Qed.
