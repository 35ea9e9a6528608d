(** * PropForwardRnd: C88, a life of calls with output times ahead returns
    What a call that ends well leaves behind is what the next call needs, in
    arithmetic with rounding: the left end of the root search is the current time
    or the time just returned. *)
Require Import List Arith Bool Lia Reals Lra Psatz.
Import ListNotations.
Require Import Verif.Base Verif.Scalar Verif.ScalarR Verif.RoundR Verif.Dense Verif.Norms Verif.Newton Verif.NewtonSpec
  Verif.IdaState Verif.IdaNls Verif.IdaCore Verif.IdaRoots Verif.IdaSolve Verif.IdaIo Verif.BaseFacts Verif.NewtonFacts
  Verif.IdaFacts Verif.IdaLoops Verif.IdaStep Verif.IdaSpec Verif.IdaShell Verif.IdaReach Verif.IdaInv
  Verif.IdaCount Verif.IdaLife Verif.IdaTrace Verif.IdaStepR Verif.IdaSafe Verif.IdaCall Verif.PropSafe
  Verif.IdaStepRnd Verif.PropTimesRnd Verif.RootRnd Verif.RootWalk Verif.PropRootsRnd Verif.PropReturn Verif.PropSolve Verif.ReturnAny Verif.PropReturnRnd.
Open Scope R_scope.

(** ** The stop tests, for every scalar *)
Section Any.
Context {T LSt NSt : Type} `{Scalar T} `{LSolver T LSt} `{NLSolver T NSt}.
Variable prob : problem T.
Notation state := (ida T LSt NSt).

Definition reached_tout (b : state) (tout : T) : bool := (szero <=? (tn (nlp b) - tout) * hh b)%sc.

Lemma stop1_done (b s : state) tout tret itask t q : stop_test1 prob b tout tret itask = Ret (s, t, Ok q) -> q <> ContinueSteps ->
  shell prob b s /\ tretlast s = t /\
  (itask = Normal /\ t = tout /\ ((tout =? tretlast b)%sc = true \/ reached_tout b tout = true) \/
   itask = OneStep /\ t = tn (nlp b) \/
   at_tstop b t = true /\ (itask = Normal -> reached_tout b tout = false)).
Proof.
  intros E Hq. split.
  { destruct (stop_test1_shell _ _ _ _ _ _ _ _ E) as [(C & _)|(_ & S)]; [congruence|exact S]. }
  unfold reached_tout. unfold stop_test1 in E.
  assert (E' : match itask with
    | Normal =>
      if (tout =? tretlast b)%sc then Ret (set_tretlast tout b, tout, Ok Success)
      else if (szero <=? (tn (nlp b) - tout) * hh b)%sc then
        let* (st, r) := get_solution prob b tout in
        match r with Err e => Ret (st, tret, Err e) | Ok _ => Ret (set_tretlast tout st, tout, Ok Success) end
      else
        match tstop b with
        | Some ts => if at_tstop b ts then
              let* (st, r) := get_solution prob b ts in
              match r with
              | Err _ => Ret (st, tret, Err (EIda (BadStopTime ts (tn (nlp st)))))
              | Ok _ => Ret (set_tstop None (set_tretlast ts st), ts, Ok TStop)
              end
            else Ret (limit_to_tstop b ts, tret, Ok ContinueSteps)
        | None => Ret (b, tret, Ok ContinueSteps)
        end
    | OneStep =>
      if (szero <? (tn (nlp b) - tretlast b) * hh b)%sc then
        let* (st, _) := get_solution prob b (tn (nlp b)) in
        Ret (set_tretlast (tn (nlp st)) st, tn (nlp st), Ok Success)
      else
        match tstop b with
        | Some ts => if at_tstop b ts then
              let* (st, r) := get_solution prob b ts in
              match r with
              | Err e => Ret (st, tret, Err e)
              | Ok _ => Ret (set_tretlast ts st, ts, Ok TStop)
              end
            else Ret (limit_to_tstop b ts, tret, Ok ContinueSteps)
        | None => Ret (b, tret, Ok ContinueSteps)
        end
    end = Ret (s, t, Ok q)).
  { destruct (tstop b) as [ts|]; [|exact E]. destruct (szero <? _)%sc; [discriminate|exact E]. }
  clear E. destruct itask.
  - destruct (tout =? tretlast b)%sc; [injection E' as <- <- _; split; [reflexivity|left; auto]|].
    destruct (szero <=? (tn (nlp b) - tout) * hh b)%sc.
    + apply bind_ret_inv in E'. destruct E' as ((d & r) & _ & E'). cbv beta iota in E'.
      destruct r; [injection E' as <- <- _; split; [reflexivity|left; auto]|discriminate].
    + destruct (tstop b) as [ts|]; [|injection E' as _ _ E'; congruence].
      destruct (at_tstop b ts) eqn:Ea; [|injection E' as _ _ E'; congruence].
      apply bind_ret_inv in E'. destruct E' as ((d & r) & _ & E'). cbv beta iota in E'.
      destruct r; [injection E' as <- <- _; split; [reflexivity|right; right; auto]|discriminate].
  - destruct (szero <? _)%sc.
    + apply bind_ret_inv in E'. destruct E' as ((d & r) & E1 & E'). cbv beta iota in E'. injection E' as <- <- _.
      split; [reflexivity|]. right. left. split; [reflexivity|]. apply (gs_tn _ _ _ _ _ E1).
    + destruct (tstop b) as [ts|]; [|injection E' as _ _ E'; congruence].
      destruct (at_tstop b ts) eqn:Ea; [|injection E' as _ _ E'; congruence].
      apply bind_ret_inv in E'. destruct E' as ((d & r) & _ & E'). cbv beta iota in E'.
      destruct r; [injection E' as <- <- _; split; [reflexivity|right; right; split; [exact Ea|discriminate]]|discriminate].
Qed.

Lemma stop2_done (b s : state) tout tret itask t q : stop_test2 prob b tout tret itask = Ret (s, t, Ok q) -> q <> ContinueSteps ->
  tn (nlp s) = tn (nlp b) /\ tretlast s = t /\
  (itask = Normal /\ t = tout /\ hh s = hh b /\ reached_tout b tout = true \/
   itask = OneStep /\ t = tn (nlp b) \/
   at_tstop b t = true /\ hh s = hh b /\ (itask = Normal -> reached_tout b tout = false)).
Proof.
  intros E Hq. assert (Cs : forall x y : state, shell prob x y -> tn (nlp y) = tn (nlp x) /\ hh y = hh x).
  { intros x y S. pose proof (core_fields _ _ (sh_core _ _ _ S)) as Cf. tauto. }
  assert (Cl : forall x y : state, lims x y -> tn (nlp y) = tn (nlp x)).
  { intros x y L. destruct (lims_fields _ _ L) as (h & Eh). rewrite Eh. reflexivity. }
  split.
  { destruct (stop_test2_shell _ _ _ _ _ _ _ _ E) as [(_ & L & _)|(_ & [S|(x & L & S)])].
    - exact (Cl _ _ L).
    - apply (Cs _ _ S).
    - rewrite (proj1 (Cs _ _ S)). exact (Cl _ _ L). }
  assert (Tst : forall x, stop2_tstop prob b = Ret x -> match x with
    | inl (s1, t1, _) => tretlast s1 = t1 /\ at_tstop b t1 = true /\ hh s1 = hh b
    | inr s1 => tn (nlp s1) = tn (nlp b) end).
  { intros x Ex. unfold stop2_tstop in Ex. destruct (tstop b) as [ts|]; [|injection Ex as <-; reflexivity].
    destruct (at_tstop b ts) eqn:Ea.
    - apply bind_ret_inv in Ex. destruct Ex as ((d & r) & E1 & Ex). cbv beta iota in Ex. injection Ex as <-.
      apply get_solution_shell in E1. split; [reflexivity|]. split; [exact Ea|]. exact (proj2 (Cs _ _ E1)).
    - injection Ex as <-. unfold limit_to_tstop. destruct (_ <? _)%sc; reflexivity. }
  unfold reached_tout. unfold stop_test2 in E. destruct itask.
  - destruct (szero <=? (tn (nlp b) - tout) * hh b)%sc.
    + apply bind_ret_inv in E. destruct E as ((d & r) & E1 & E). cbv beta iota in E. injection E as <- <- _.
      destruct (gs_asked _ _ _ _ _ E1) as (_ & _ & Er). apply get_solution_shell in E1. destruct (Cs _ _ E1) as (_ & Eh).
      split; [exact Er|]. left. split; [reflexivity|]. split; [reflexivity|]. split; [exact Eh|reflexivity].
    + apply bind_ret_inv in E. destruct E as (x & Ex & E). specialize (Tst x Ex). destruct x as [((s1 & t1) & r1)|s1].
      * injection E as <- <- _. destruct Tst as (A & B & C). split; [exact A|]. right. right. auto.
      * injection E as _ _ E. congruence.
  - apply bind_ret_inv in E. destruct E as (x & Ex & E). specialize (Tst x Ex). destruct x as [((s1 & t1) & r1)|s1].
    + injection E as <- <- _. destruct Tst as (A & B & C). split; [exact A|]. right. right. split; [exact B|]. split; [exact C|discriminate].
    + injection E as <- <- _. split; [reflexivity|]. right. left. auto.
Qed.
End Any.

Section Rnd.
Variables (u : R) (rnd : R -> R).
Hypothesis Hf : f64_like u rnd.
Let Hg : regular u rnd := f64_like_regular u rnd Hf.
Local Instance SRw : Scalar R := ScalarRnd rnd.
Context {LSt NSt : Type} `{LSolver R LSt} `{NLSolver R NSt}.
Variable prob : problem R.
Variable ewt_set : list R -> list R.
Hypothesis Hl : @nls_lawful R NSt _.
Notation n := (model_size prob).
Notation nr := (num_roots prob).
Notation state := (ida R LSt NSt).
Variable c : @config R.
Hypothesis Hc : config_ok c.
Hypothesis Ht0 : rnd (g_t0 c) = g_t0 c.
Hypothesis Hts : forall ts, g_tstop c = Some ts -> rnd ts = ts.
Notation D := (D u rnd prob c).
Notation Qt := (fun (_ : LSt) (_ : mat R) => True).
Notation wft := (wf prob Qt).

Notation span st := (3 * (Rabs (tn (nlp st)) + Rabs (hh st))).

(** What a call leaves behind. *)
Definition left_well (st : state) : Prop := (0 < nrtfn st)%nat ->
  Rabs (tretlast st) <= span st /\ Rabs (tlo st) <= span st /\
  (Rabs (tlo st) <= 11 / 10 * Rabs (tn (nlp st)) \/ tlo st = tretlast st).

(** The step is not huge compared with the time. *)
Definition not_tiny (st : state) : Prop :=
  get_num_steps st <> 0%nat -> Rabs (get_current_setp st) <= 1000000000000 * Rabs (get_current_time st).

(** The output time is not behind the time [tl] returned last, in the direction of
    the integration. *)
Definition asks_ahead (st : state) (tl tout : R) (itask : task) : Prop :=
  get_num_steps st <> 0%nat -> itask = Normal -> 0 <= (tout - tl) * get_current_setp st.

Lemma u_small : 0 <= u <= / 1000000.
Proof. pose proof Hf as (U & _). lra. Qed.

Lemma close_bound (st : state) (x : R) : get_num_steps st <> 0%nat -> not_tiny st ->
  Rabs (get_current_time st - x) <= exact_tol st * (1 + 6 * u) -> Rabs x <= 11 / 10 * Rabs (get_current_time st).
Proof.
  intros Hz Ht Hx. specialize (Ht Hz). unfold exact_tol in Hx. pose proof u_small.
  pose proof (Rabs_pos (get_current_time st)). pose proof (Rabs_pos (get_current_setp st)).
  pose proof (Rabs_triang_inv x (get_current_time st)) as Y. rewrite Rabs_minus_sym in Y.
  set (a := Rabs (get_current_time st)) in *. set (h := Rabs (get_current_setp st)) in *.
  assert (100 * / 4503599627370496 * (a + h) * (1 + 6 * u) <= 100 * / 4503599627370496 * (1000000000001 * a) * (1 + 6 * u)).
  { apply Rmult_le_compat_r; [lra|]. apply Rmult_le_compat_l; lra. }
  assert (100 * / 4503599627370496 * (1000000000001 * a) * (1 + 6 * u) <= 100 * / 4503599627370496 * (1000000000001 * a) * 2).
  { apply Rmult_le_compat_l; lra. }
  lra.
Qed.

Lemma well_ready (st : state) tout itask : left_well st \/ get_num_steps st = 0%nat -> not_tiny st -> asks_ahead st (tretlast st) tout itask ->
  call_ready u st tout itask.
Proof.
  intros [G|G] Ht Ha Hz Hp; [|destruct (Hz G)]. destruct (G Hp) as (G0 & G1 & G2). split; [exact G1|].
  split.
  - intros E. specialize (Ha Hz E). unfold get_current_time, get_current_setp in *.
    destruct (Rle_or_lt 0 ((tout - tn (nlp st)) * hh st)) as [L|L]; [left; exact L|right].
    pose proof (Rabs_pos (tn (nlp st))). pose proof (Rabs_pos (hh st)).
    assert (Bt : Rabs tout <= Rmax (Rabs (tretlast st)) (Rabs (tn (nlp st)))).
    { clear - Ha L. set (a := tretlast st) in *. set (b := tn (nlp st)) in *. set (h := hh st) in *. clearbody a b h.
      destruct (Rtotal_order h 0) as [X|[X|X]].
      - assert (b < tout) by nra. assert (tout <= a) by nra.
        unfold Rmax, Rabs. destruct (Rcase_abs tout), (Rcase_abs a), (Rcase_abs b), (Rle_dec _ _); lra.
      - subst h. lra.
      - assert (tout < b) by nra. assert (a <= tout) by nra.
        unfold Rmax, Rabs. destruct (Rcase_abs tout), (Rcase_abs a), (Rcase_abs b), (Rle_dec _ _); lra. }
    revert Bt. unfold Rmax. destruct (Rle_dec _ _); lra.
  - destruct G2 as [G2|G2]; [left; exact G2|].
    destruct (Rlt_or_le (exact_tol st * (1 + 6 * u)) (Rabs (get_current_time st - tretlast st))) as [L|L]; [right; exact L|left].
    rewrite G2. exact (close_bound st _ Hz Ht L).
Qed.

Lemma pos_rnd x h : Rleb 0 (rnd (rnd x * h)) = true -> 0 <= x * h.
Proof.
  intros E. apply Rleb_true in E. destruct (Rle_or_lt 0 (x * h)) as [L|L]; [exact L|]. exfalso.
  pose proof (rnd_same u rnd Hg x (- h) ltac:(lra)) as Q. assert (Q' : rnd x * h < 0) by lra.
  pose proof (rnd_neg u rnd Hg _ Q'). lra.
Qed.

(** The stop time, when it is taken for reached. *)
Lemma ts_bound (b : state) ts : at_tstop b ts = true -> Rabs ts <= span b.
Proof.
  intros E. unfold at_tstop in E. apply Rleb_true in E. cbn [sabs sadd smul ssub seps shundred SRw ScalarRnd] in E.
  pose proof (Rabs_pos (tn (nlp b))). pose proof (Rabs_pos (hh b)).
  set (x := Rabs (tn (nlp b)) + Rabs (hh b)) in *. assert (0 <= x) by (unfold x; lra).
  match type of E with _ <= rnd (?p * rnd x) => pose proof (rnd_high u rnd Hf (p * rnd x)) as A1; set (pp := p) in * end.
  pose proof (rnd_high u rnd Hf x) as A2. rewrite (Rabs_pos_eq x) in A2 by assumption.
  assert (A3 : Rabs pp <= / 1000).
  { unfold pp. eapply Rle_trans; [apply (rnd_high u rnd Hf)|]. rewrite Rabs_pos_eq; lra. }
  rewrite Rabs_mult in A1. pose proof (rnd_low u rnd Hf (tn (nlp b) - ts)) as A4.
  pose proof (Rle_abs (rnd (pp * rnd x))) as A5.
  assert (A6 : Rabs pp * Rabs (rnd x) <= / 1000 * (101 / 100 * x)).
  { apply Rmult_le_compat; try apply Rabs_pos; assumption. }
  pose proof (Rabs_triang_inv ts (tn (nlp b))) as Y. rewrite Rabs_minus_sym in Y. unfold x in *. lra.
Qed.

(** A found root lies in the interval. *)
Lemma found_bound fuel (a b : state) : search_ready rnd prob a -> r_check3 prob fuel a = Ret (b, RootFound) ->
  tn (nlp b) = tn (nlp a) /\ hh b = hh a /\ Rabs (tlo b) <= 3 * (Rabs (tn (nlp a)) + Rabs (hh a)).
Proof.
  intros Rd E. pose proof (r_check3_shell _ _ _ _ _ E) as S. destruct (shell_tnh prob _ _ S) as (T1 & T2).
  split; [exact T1|]. split; [exact T2|].
  destruct (C86_root_bracketed u rnd Hf prob fuel a b Rd E) as (tl & gl & (x & y & Hx & Hy & _ & Et) & _).
  destruct Rd as (_ & _ & _ & _ & B1 & B2). unfold get_current_time, get_current_setp in *.
  set (M := 3 * _) in *. rewrite Et. replace (tlo a + y * (search_end rnd a - tlo a)) with ((1 - y) * tlo a + y * search_end rnd a) by ring.
  eapply Rle_trans; [apply Rabs_triang|]. rewrite !Rabs_mult, (Rabs_pos_eq (1 - y)), (Rabs_pos_eq y) by lra. nra.
Qed.

Section Call.
Variable st : state.
Hypothesis O : ordok st.
Hypothesis W : wft st.
Hypothesis Ds : D None st.
Variables (tout : R) (itask : task).
Hypothesis Hk : call_ready u st tout itask.
Hypothesis Htr : nst st <> 0%nat -> (0 < nrtfn st)%nat -> Rabs (tretlast st) <= span st.
Notation Inv := (Inv tout itask).

(** A search that found nothing. *)
Lemma end_cases (d : state) : taskc d = itask -> (itask = Normal -> toutc d = tout) ->
  search_end rnd d = tn (nlp d) \/ itask = Normal /\ search_end rnd d = tout.
Proof.
  intros G1 G2. unfold search_end, get_current_time. rewrite G1. destruct itask; [|left; reflexivity].
  rewrite (G2 eq_refl). destruct (Rle_dec _ _); [left|right]; auto.
Qed.

Lemma same_tout (d : state) : hh d <> 0 -> reached_tout d tout = true -> 0 <= (tout - tn (nlp d)) * hh d -> tout = tn (nlp d).
Proof. intros Hh E L. apply pos_rnd in E. destruct (Rtotal_order (hh d) 0) as [X|[X|X]]; nra. Qed.

Lemma tout_bound (d : state) : taskc d = itask -> (itask = Normal -> toutc d = tout) -> search_ready rnd prob d -> itask = Normal ->
  reached_tout d tout = true -> Rabs tout <= span d.
Proof.
  intros G1 G2 Rd Ei E. destruct Rd as (_ & _ & Hh & _ & _ & B2). unfold search_end, get_current_time, get_current_setp in B2.
  rewrite G1, Ei, (G2 Ei) in B2. destruct (Rle_dec _ _) as [L|L]; [|exact B2].
  rewrite (same_tout d Hh E); [exact B2|]. apply pos_rnd. apply Rleb_true. exact L.
Qed.

Lemma at_tn (s : state) : tlo s = tn (nlp s) -> Rabs (tretlast s) <= span s -> left_well s.
Proof. intros E B _. rewrite E. pose proof (Rabs_pos (tn (nlp s))). pose proof (Rabs_pos (hh s)). split; [exact B|]. split; [lra|left; lra]. Qed.

(** How the call ended after a search of [d] that found nothing. *)
Lemma searched_well (d s : state) : taskc d = itask -> (itask = Normal -> toutc d = tout) -> search_ready rnd prob d ->
  tlo s = search_end rnd d -> tn (nlp s) = tn (nlp d) ->
  (itask = Normal /\ tretlast s = tout /\ hh s = hh d /\ Rabs tout <= span d \/
   itask = OneStep /\ tretlast s = tn (nlp d) \/
   Rabs (tretlast s) <= span d /\ hh s = hh d /\ (itask = Normal -> reached_tout d tout = false)) -> left_well s.
Proof.
  intros G1 G2 Rd Et En Cs. destruct (end_cases d G1 G2) as [E|(Ei & E)].
  - apply at_tn; [congruence|]. pose proof (Rabs_pos (tn (nlp d))). pose proof (Rabs_pos (hh d)). pose proof (Rabs_pos (hh s)).
    destruct Cs as [(_ & A & B & C)|[(_ & A)|(A & B & _)]]; rewrite ?En, ?A, ?B; lra.
  - destruct Cs as [(_ & A & B & C)|[(A & _)|(A & B & C)]].
    + intros _. rewrite Et, E, A, En, B. split; [exact C|]. split; [exact C|right; reflexivity].
    + congruence.
    + exfalso. assert (Q : search_end rnd d = tn (nlp d)).
      { apply (end_tn u rnd Hf d tout itask G1 G2). intros _. exact (neg_rnd u rnd Hf _ _ (C Ei)). }
      destruct Rd as (_ & _ & Hh & _). pose proof (neg_rnd u rnd Hf _ _ (C Ei)) as Z. rewrite <- E, Q in Z. lra.
Qed.

Lemma root_well (b : state) x : Rabs (tlo b) <= span b -> left_well (set_tretlast (tlo b) (set_irfnd x b)) /\ left_well (set_tretlast (tlo b) b).
Proof.
  intros B. assert (Q : Rabs (tlo b) <= span b /\ Rabs (tlo b) <= span b /\ (Rabs (tlo b) <= 11 / 10 * Rabs (tn (nlp b)) \/ tlo b = tlo b)) by auto.
  split; intros _; exact Q.
Qed.

Lemma post_well rfuel (s2 s' : state) tret t q :
  taskc s2 = itask -> (itask = Normal -> toutc s2 = tout) -> ((0 < nrtfn s2)%nat -> search_ready rnd prob s2) ->
  post_step prob rfuel s2 tout tret itask = Ret (s', t, Ok q) -> q <> ContinueSteps -> left_well s' /\ tretlast s' = t.
Proof.
  intros G1 G2 G3 E Hq. unfold post_step in E. apply bind_ret_inv in E. destruct E as (x & Ex & E). cbv beta in E.
  destruct (Nat.ltb_spec 0 (nrtfn s2)) as [Hp|Hp].
  - apply bind_ret_inv in Ex. destruct Ex as ((b & r) & Ex & E'). cbv beta iota in E'. specialize (G3 Hp). destruct r.
    + injection E' as <-. destruct (found_bound _ _ _ G3 Ex) as (T1 & T2 & B). rewrite <- T1, <- T2 in B. injection E as <- <- _.
      split; [exact (proj1 (root_well b true B))|reflexivity].
    + injection E' as <-. pose proof (r_check3_shell _ _ _ _ _ Ex) as S3. destruct (shell_tnh prob _ _ S3) as (T1 & T2).
      destruct (C86_no_root_missed u rnd Hf prob rfuel s2 b G3 Ex) as (Et & _).
      destruct (still_fields _ _ (proj1 (still_stop2 _ _ _ _ _ _ _ _ E))) as (F1 & _).
      destruct (stop2_done _ _ _ _ _ _ _ _ E Hq) as (V1 & V2 & V3). split; [|exact V2].
      assert (Er : reached_tout b tout = reached_tout s2 tout) by (unfold reached_tout; rewrite T1, T2; reflexivity).
      rewrite Er in V3. apply (searched_well s2 s' G1 G2 G3); [congruence|congruence|]. rewrite V2.
      destruct V3 as [(A & B & C & E0)|[(A & B)|(A & B & C)]].
      * left. split; [exact A|]. split; [exact B|]. split; [congruence|]. exact (tout_bound s2 G1 G2 G3 A E0).
      * right. left. split; [exact A|congruence].
      * right. right. apply ts_bound in A. rewrite T1, T2 in A. split; [exact A|]. split; [congruence|exact C].
  - injection Ex as <-. destruct (stop2_done _ _ _ _ _ _ _ _ E Hq) as (_ & V2 & _). split; [|exact V2]. intros C. exfalso.
    destruct (still_fields _ _ (proj1 (still_stop2 _ _ _ _ _ _ _ _ E))) as (_ & _ & _ & F4). apply cfg_nrtfn in F4. lia.
Qed.

(** The check at the start is skipped only if the left end is close. *)
Lemma skipped (d : state) : tn (nlp d) = tn (nlp st) -> hh d = hh st -> tretlast d = tretlast st ->
  nst st <> 0%nat -> (0 < nrtfn st)%nat ->
  (root_ttol d <? sabs (tn (nlp d) - tretlast d))%sc = false -> Rabs (tlo st) <= 11 / 10 * Rabs (tn (nlp st)).
Proof.
  intros G4 G5 Er Hz Hp Eb. destruct (Hk Hz Hp) as (_ & _ & [K|K]); [exact K|]. exfalso.
  apply Rltb_false in Eb. cbn [sabs SRw ScalarRnd] in Eb. unfold get_current_time in K. rewrite G4, Er in Eb.
  pose proof (tol_near u rnd Hf d) as (_ & T2).
  assert (Ex : exact_tol d = exact_tol st) by (unfold exact_tol, get_current_time, get_current_setp; rewrite G4, G5; reflexivity).
  rewrite Ex in T2. set (x := tn (nlp st) - tretlast st) in *.
  assert (Eb' : Rabs (rnd x) <= exact_tol st * (1 + 4 * u)) by (eapply Rle_trans; [exact Eb|exact T2]).
  pose proof Hf as (U & Eu & _). specialize (Eu x).
  pose proof (Rabs_triang_inv x (x - rnd x)) as Y. replace (x - (x - rnd x)) with (rnd x) in Y by ring.
  rewrite Rabs_minus_sym in Eu.
  assert (Z1 : (1 - u) * Rabs x <= exact_tol st * (1 + 4 * u)) by lra.
  assert (Z0 : 0 <= exact_tol st).
  { unfold exact_tol. pose proof (Rabs_pos (get_current_time st)). pose proof (Rabs_pos (get_current_setp st)). lra. }
  assert (Z2 : exact_tol st * (1 + 4 * u) <= (1 - u) * (exact_tol st * (1 + 6 * u))).
  { replace ((1 - u) * (exact_tol st * (1 + 6 * u))) with (exact_tol st * ((1 - u) * (1 + 6 * u))) by ring.
    apply Rmult_le_compat_l; [exact Z0|nra]. }
  assert (Z3 : (1 - u) * (exact_tol st * (1 + 6 * u)) < (1 - u) * Rabs x) by (apply Rmult_lt_compat_l; [lra|exact K]).
  lra.
Qed.

Lemma later_well rfuel (a : state) tret s' t q : pieces prob ewt_set st a -> still (task_set st tout itask) a ->
  shell prob (task_set st tout itask) a -> tretlast a = tretlast st -> nst a <> 0%nat ->
  later_call prob rfuel a tout tret itask = Ret (inl (s', t, Ok q)) -> left_well s' /\ tretlast s' = t.
Proof.
  intros P Q S Er Hz E. destruct (tset_asked st tout itask) as (X1 & X2 & X3 & X4 & X5 & X6).
  assert (Et0 : tn (nlp (task_set st tout itask)) = tn (nlp st)) by (unfold task_set; destruct itask; reflexivity).
  assert (Eh0 : hh (task_set st tout itask) = hh st) by (unfold task_set; destruct itask; reflexivity).
  pose proof (later_call_shell _ _ _ _ _ _ _ E) as (_ & Sa). cbv beta iota in Sa.
  unfold later_call in E. apply bind_ret_inv in E. destruct E as (y & Ey & E). cbv beta in E.
  assert (Fin : forall (b : state) x, stop_test1 prob b tout tret itask = Ret x ->
    (let '(st0, tret0, istate) := x in match istate with Ok ContinueSteps => Ret (inr (st0, tret0)) | _ => Ret (inl (st0, tret0, istate)) end)
      = Ret (inl (s', t, Ok q) : state * R * result solve_status (err R) + state * R) ->
    stop_test1 prob b tout tret itask = Ret (s', t, Ok q) /\ q <> ContinueSteps).
  { intros b ((s1 & t1) & r1) Es Ex. cbv beta iota in Ex. rewrite Es.
    destruct r1 as [[]|]; try discriminate; injection Ex as <- <- <-; split; try reflexivity; discriminate. }
  destruct (Nat.ltb_spec 0 (nrtfn a)) as [Hp|Hp].
  2: { injection Ey as <-. apply bind_ret_inv in E. destruct E as (x & Es & Ex). destruct (Fin a x Es Ex) as (Es' & Hq').
    destruct (stop1_done _ _ _ _ _ _ _ _ Es' Hq') as (_ & V & _). split; [|exact V].
    intros C. rewrite (shell_nrtfn prob _ _ Sa) in C. lia. }
  apply bind_ret_inv in Ey. destruct Ey as ((d & r) & E2 & Ey). cbv beta iota in Ey.
  assert (Hz0 : nst st <> 0%nat) by (rewrite <- X6, <- (shell_nst _ _ _ S); exact Hz).
  assert (Hp0 : (0 < nrtfn st)%nat).
  { destruct (still_fields _ _ Q) as (_ & _ & _ & F4). apply cfg_nrtfn in F4. rewrite <- X4, <- F4. exact Hp. }
  pose proof (Htr Hz0 Hp0) as B0. destruct (Hk Hz0 Hp0) as (K1 & K2 & _). unfold get_current_time, get_current_setp in K1, K2.
  destruct r as [[|]|e].
  - (* the root found again *)
    injection Ey as <-. injection E as <- <- _. destruct (check2_asked _ _ _ _ E2) as (_ & Et & _).
    pose proof (r_check2_shell _ _ _ _ E2) as S2. destruct (shell_tnh prob _ _ (shell_trans _ _ _ _ S S2)) as (T1 & T2).
    rewrite Et0 in T1. rewrite Eh0 in T2. destruct (still_fields _ _ Q) as (F1 & _).
    split; [|reflexivity]. apply (root_well d true). rewrite T1, T2, Et, F1, X3. exact K1.
  - destruct (check2_ready u rnd Hf prob ewt_set Hl c Hts st O W Ds tout itask Hk a d P Q S Hz Hp E2) as (G1 & G2 & Rd & G3 & G4 & G5 & G6).
    rewrite <- G4, <- G5 in B0, K2.
    assert (Hh : hh d <> 0) by apply Rd.
    (* the stop test made with these times *)
    assert (Stop : forall b, tn (nlp b) = tn (nlp d) -> hh b = hh d -> tretlast b = tretlast d ->
      stop_test1 prob b tout tret itask = Ret (s', t, Ok q) -> q <> ContinueSteps ->
      tn (nlp s') = tn (nlp d) /\ hh s' = hh d /\ tretlast s' = t /\
      (itask = Normal /\ tretlast s' = tout /\ hh s' = hh d /\ Rabs tout <= span d \/
       itask = OneStep /\ tretlast s' = tn (nlp d) \/
       Rabs (tretlast s') <= span d /\ hh s' = hh d /\ (itask = Normal -> reached_tout d tout = false))).
    { intros b B1 B2 B3 Es Hq. destruct (stop1_done _ _ _ _ _ _ _ _ Es Hq) as (Ss & V2 & V3).
      destruct (shell_tnh prob _ _ Ss) as (T3 & T4). rewrite B1 in T3. rewrite B2 in T4.
      split; [exact T3|]. split; [exact T4|]. split; [exact V2|]. rewrite V2.
      assert (Eb : reached_tout b tout = reached_tout d tout) by (unfold reached_tout; rewrite B1, B2; reflexivity).
      rewrite Eb, B1, B3 in V3. destruct V3 as [(A & B & C)|[(A & B)|(A & C)]].
      - left. split; [exact A|]. split; [exact B|]. split; [exact T4|]. destruct C as [C|C].
        + apply Reqb_true in C. rewrite C, G6, Er. exact B0.
        + destruct (K2 A) as [K|K]; [|exact K]. rewrite (same_tout d Hh C K).
          pose proof (Rabs_pos (tn (nlp d))). pose proof (Rabs_pos (hh d)). lra.
      - right. left. auto.
      - right. right. apply ts_bound in A. rewrite B1, B2 in A. auto. }
    destruct (root_ttol d <? sabs (tn (nlp d) - tretlast d))%sc eqn:Eb.
    + apply bind_ret_inv in Ey. destruct Ey as ((e & r) & E3 & Ey). cbv beta iota in Ey. destruct r.
      * injection Ey as <-. injection E as <- <- _. destruct (found_bound _ _ _ Rd E3) as (T1 & T2 & B). rewrite <- T1, <- T2 in B.
        split; [exact (proj1 (root_well e true B))|reflexivity].
      * destruct (C86_no_root_missed u rnd Hf prob rfuel d e Rd E3) as (Et & _).
        pose proof (r_check3_shell _ _ _ _ _ E3) as S3. destruct (shell_tnh prob _ _ S3) as (T1 & T2).
        destruct (check3_asked _ _ _ _ E3) as (_ & Er3).
        assert (Cs : y = inr (set_irfnd false e) \/ itask = OneStep /\ exists f rf,
          get_solution prob (set_tretlast (tn (nlp e)) (set_irfnd false e)) (tn (nlp e)) = Ret (f, rf) /\ y = inl (f, tn (nlp f), Ok Success)).
        { clear - Ey. destruct itask; [left; injection Ey as <-; reflexivity|]. destruct (irfnd a); [|left; injection Ey as <-; reflexivity].
          right. split; [reflexivity|]. apply bind_ret_inv in Ey. destruct Ey as ((f & rf) & Eg & Ey). cbv beta iota in Ey.
          exists f, rf. split; [exact Eg|]. injection Ey as <-. reflexivity. }
        clear Ey. destruct Cs as [->|(Ei & f & rf & Eg & ->)].
        -- apply bind_ret_inv in E. destruct E as (x & Es & Ex). destruct (Fin _ x Es Ex) as (Es' & Hq').
           destruct (still_fields _ _ (proj1 (still_stop1 _ _ _ _ _ _ _ _ Es'))) as (F1 & _).
           destruct (Stop (set_irfnd false e) T1 T2 Er3 Es' Hq') as (V1 & V2 & V3 & V4). split; [|exact V3].
           apply (searched_well d s' G1 G2 Rd); [exact (eq_trans F1 Et)|exact V1|exact V4].
        -- injection E as <- <- _.
           destruct (gs_asked _ _ _ _ _ Eg) as (_ & F1 & F3). apply get_solution_shell in Eg. destruct (shell_tnh prob _ _ Eg) as (T3 & T4).
           assert (F3' : tretlast f = tn (nlp e)) by exact F3. assert (T3' : tn (nlp f) = tn (nlp e)) by exact T3.
           split; [|congruence].
           apply (searched_well d f G1 G2 Rd); [exact (eq_trans F1 Et)|congruence|]. right. left. split; [exact Ei|congruence].
    + injection Ey as <-. apply bind_ret_inv in E. destruct E as (x & Es & Ex). destruct (Fin _ x Es Ex) as (Es' & Hq').
      destruct (still_fields _ _ (proj1 (still_stop1 _ _ _ _ _ _ _ _ Es'))) as (F1 & _).
      destruct (Stop d eq_refl eq_refl eq_refl Es' Hq') as (V1 & V2 & V3 & V4). split; [|exact V3].
      pose proof (skipped d G4 G5 (eq_trans G6 Er) Hz0 Hp0 Eb) as Sk. intros _. rewrite F1, V1, V2, G3. rewrite <- G4 in Sk.
      pose proof (Rabs_pos (tn (nlp d))). pose proof (Rabs_pos (hh d)).
      split; [|split; [lra|left; exact Sk]].
      destruct V4 as [(_ & A & _ & C)|[(_ & A)|(A & _)]]; [rewrite A; exact C|rewrite A; lra|exact A].
  - exfalso. injection Ey as <-. discriminate.
Qed.

Lemma loops_inv rfuel tret (s0 s : state) nl : enters prob ewt_set rfuel st tout tret itask s0 ->
  loops prob ewt_set rfuel tout itask tret s0 s nl -> Inv s.
Proof.
  intros En Lo. pose proof (enters_head _ _ _ _ _ _ _ _ En) as Hd0.
  induction Lo as [|s nl s1 s2 v s' Lo IH Ep Es Ef].
  - exact (enters_inv u rnd Hf prob ewt_set Hl c Hts st O W Ds tout itask Hk rfuel tret s0 En).
  - destruct (head_loop _ _ _ _ _ _ _ _ _ _ Hd0 Lo) as (Hd & _).
    destruct (after_step u rnd Hf prob ewt_set Hl c Hts st O W Ds tout itask rfuel s s1 s2 tret nl v Hd IH Ep Es) as (G1 & G2 & _ & G4).
    exact (post_inv u rnd Hf prob tout itask rfuel s2 s' tret tret G1 G2 G4 Ef).
Qed.

Lemma call_well fuel rfuel tret st' t q : solve prob ewt_set fuel rfuel st tout tret itask = Ret (st', t, Ok q) ->
  left_well st' /\ tretlast st' = t.
Proof.
  intros E. destruct (solve_run _ _ _ _ _ _ _ _ _ _ _ E) as [A|(s0 & s & nl & m & Ent & Lo & F)].
  - unfold answers in A. destruct (tset_asked st tout itask) as (X1 & X2 & X3 & X4 & X5 & X6).
    destruct (solve_start_cases _ _ _ _ _ _ _ _ A) as [(_ & s & m & _ & C)|[(_ & s & l & _ & _ & _ & _ & C)|(Hz & l & E1 & S1 & Q)]];
      [discriminate|discriminate|].
    pose proof (still_perf prob _ _ _ E1) as Q0.
    assert (Er : tretlast (on_lp (fun _ => l) (task_set st tout itask)) = tretlast st) by exact X5.
    set (a := on_lp (fun _ => l) (task_set st tout itask)) in *. clearbody a.
    apply (later_well rfuel a tret st' t q); [|exact Q0|exact S1|exact Er|rewrite (shell_nst _ _ _ S1); exact Hz|exact Q].
    eapply pieces_shell; [|exact S1]. apply piece1. apply p_shell. apply task_set_shell.
  - pose proof (loops_inv _ _ _ _ _ Ent Lo) as Is. pose proof (enters_head _ _ _ _ _ _ _ _ Ent) as Hd0.
    destruct (head_loop _ _ _ _ _ _ _ _ _ _ Hd0 Lo) as (Hd & _).
    inversion F as [s' t' r' Ep|s1 s2 e s' t' r' Ep Es Ef|s1 s2 v s' t' r' Ep Es Ef Hr]; subst.
    + exfalso. pose proof (pre_step_shell _ _ _ _ _ _ Ep) as (_ & _ & [(C & _)|(_ & [C|C])]); discriminate.
    + destruct (still_failed _ _ _ _ _ _ _ Ef) as (_ & C). discriminate.
    + destruct (after_step u rnd Hf prob ewt_set Hl c Hts st O W Ds tout itask rfuel s s1 s2 tret nl v Hd Is Ep Es) as (G1 & G2 & _ & G4).
      apply (post_well rfuel s2 st' tret t q G1 G2 G4 Ef). congruence.
Qed.

(** The call gave up after the maximal number of steps. *)
Lemma call_limit fuel rfuel tret st' t :
  solve prob ewt_set fuel rfuel st tout tret itask = Ret (st', t, Err (EIda (IllegalIn TooMuchWork))) ->
  left_well st' /\ tretlast st' = t.
Proof.
  intros E. destruct (solve_run _ _ _ _ _ _ _ _ _ _ _ E) as [A|(s0 & s & nl & m & Ent & Lo & F)].
  - exfalso. unfold answers in A.
    destruct (solve_start_cases _ _ _ _ _ _ _ _ A) as [(Hz & s & m & X & Q)|[(Hz & s & l & E1 & E2 & E3 & E4 & Q)|(Hz & l & E1 & S1 & Q)]]; try discriminate.
    + injection Q as <- <- <-. exact (first_call_err _ _ _ _ _ _ X eq_refl).
    + destruct (later_call_cases _ _ _ _ _ _ _ Q) as [(_ & y & e & X & Y)|[(_ & y & _ & _ & X)|[(_ & _ & _ & _ & y & y' & r' & _ & _ & X)|(y & y' & t' & r' & Y1 & Y2 & Y3 & Y4 & X)]]]; try discriminate.
      * injection Y as _ _ <-. apply r_check2_err in X. destruct X as (? & X). discriminate.
      * assert (Hr2 : r' = Err (EIda (IllegalIn TooMuchWork))) by (destruct r' as [[]|]; cbn in X; congruence).
        subst r'. exact (stop1_err _ _ _ _ _ _ _ _ Y4 eq_refl).
  - pose proof (loops_inv _ _ _ _ _ Ent Lo) as Is. pose proof (enters_head _ _ _ _ _ _ _ _ Ent) as Hd0.
    destruct (head_loop _ _ _ _ _ _ _ _ _ _ Hd0 Lo) as (Hd & _).
    remember (Err (EIda (IllegalIn TooMuchWork))) as r eqn:Er0.
    destruct F as [st' t r Ep|s1 s2 e st' t r Ep Es Ef|s1 s2 v st' t r Ep Es Ef Hr'].
    + assert (Q : st' = set_tretlast (tn (nlp s)) s /\ t = tn (nlp s)).
      { destruct (pre_step_cases _ _ _ _ _ _ Ep) as [(_ & X)|(_ & [(_ & _ & x & _ & _ & X)|(_ & [(_ & x & _ & _ & _ & X)|(_ & x & _ & _ & X)])])].
        - injection X as -> -> _. auto.
        - exfalso. injection X as _ _ X. congruence.
        - exfalso. injection X as _ _ X. congruence.
        - discriminate. }
      destruct Q as (-> & ->). split; [|reflexivity]. destruct Is as (_ & _ & Is). intros Hp. specialize (Is Hp).
      pose proof (Rabs_pos (tn (nlp s))). pose proof (Rabs_pos (hh s)).
      assert (Q : Rabs (tn (nlp s)) <= span s /\ Rabs (tlo s) <= span s /\ (Rabs (tlo s) <= 11 / 10 * Rabs (tn (nlp s)) \/ tlo s = tn (nlp s))).
      { split; [lra|]. split; [lra|left; exact Is]. }
      exact Q.
    + exfalso. apply step_failed_shell in Ef. destruct Ef as (_ & Er & _).
      pose proof (pre_step_shell _ _ _ _ _ _ Ep) as (S1 & _).
      destruct (pieces_D u rnd Hf prob ewt_set Hl c Hts st s O Ds (hd_pieces _ _ _ _ _ _ Hd)) as (Os & _).
      apply (step_err _ _ _ _ _ Hl (shell_ord _ _ _ S1 Os) Es). congruence.
    + exfalso. apply post_step_cases in Ef. destruct Ef as [(_ & x & _ & _ & _ & _ & X)|(x & X1 & X2 & X3 & X4)]; [congruence|].
      subst r. unfold stop_test2 in X4. minv; try discriminate.
      all: match goal with X : stop2_tstop _ _ = Ret _ |- _ => apply stop2_tstop_cases in X; cbn in X; destruct X as (X & _); discriminate end.
Qed.
End Call.

(** ** C88 *)
(** The states of a life, with the time returned last (at first the initial time),
    in which every call so far asked for an output time not behind the time returned
    last and returned a status, or the error that the maximal number of steps was
    made, while the step was not huge compared with the time. *)
Definition goes_on (r : result solve_status (err R)) : Prop :=
  match r with Ok _ => True | Err e => e = EIda (IllegalIn TooMuchWork) end.

Inductive forward (yy0 yp0 : list R) : state -> R -> Prop :=
| fw_new st0 : ida_new prob yy0 yp0 = Ret st0 -> forward yy0 yp0 (configure c st0) (g_t0 c)
| fw_call st tl fuel rfuel tout tret itask st' t r : forward yy0 yp0 st tl ->
    not_tiny st -> asks_ahead st tl tout itask -> goes_on r ->
    solve prob ewt_set fuel rfuel st tout tret itask = Ret (st', t, r) -> forward yy0 yp0 st' t.

Lemma forward_well yy0 yp0 (st : state) tl : forward yy0 yp0 st tl ->
  reach prob ewt_set c yy0 yp0 st /\ (left_well st /\ tretlast st = tl \/ get_num_steps st = 0%nat).
Proof.
  induction 1 as [st0 E0|st tl fuel rfuel tout tret itask st' t r _ (Hr & IH) Ht Ha Hgo E].
  - split; [constructor; exact E0|]. right.
    unfold ida_new in E0. destruct (_ && _); [|discriminate]. apply ret_inj in E0. subst st0. reflexivity.
  - split.
    { apply (reach_call _ _ _ _ _ fuel rfuel st (CallSolve tout tret itask) st' (ReplySolve t r) Hr). cbn [api_call]. rewrite E. reflexivity. }
    left.
    pose proof (reach_ord prob ewt_set Hl c yy0 yp0 st Hc Hr) as O.
    pose proof (reach_wf prob ewt_set Hl Qt (any_preserved prob (fun _ _ => True) (fun _ _ => I)) c yy0 yp0 st Hc I Hr) as W.
    pose proof (reach_D u rnd Hg prob ewt_set Hl c Hc Ht0 Hts yy0 yp0 st Hr) as Ds.
    assert (Hk : call_ready u st tout itask).
    { apply well_ready; [destruct IH as [(IH & _)|IH]; auto|exact Ht|].
      intros Hz. destruct IH as [(_ & IH)|IH]; [|destruct (Hz IH)]. rewrite IH. exact (Ha Hz). }
    assert (Hb : nst st <> 0%nat -> (0 < nrtfn st)%nat -> Rabs (tretlast st) <= span st).
    { intros Hz Hp. destruct IH as [(IH & _)|IH]; [apply (IH Hp)|destruct (Hz IH)]. }
    destruct r as [q|e].
    + exact (call_well st O W Ds tout itask Hk Hb fuel rfuel tret st' t q E).
    + cbn in Hgo. subst e. exact (call_limit st O W Ds tout itask Hk fuel rfuel tret st' t E).
Qed.

(** The next such call returns, with any root functions: there is an amount of fuel
    for the inner loops from which on it has one and the same result. *)
Theorem C88_forward_life_returns yy0 yp0 (st : state) tl fuel tout tret itask :
  (forall (s : NSt) y, exists s', nls_setup s y = Ret s') ->
  (forall (s : NSt) (x : nlprob R LSt) y0 y w tol call, exists r,
     nls_solve _ (ida_nlproblem prob) n s x y0 y w tol call = Ret r) ->
  forward yy0 yp0 st tl -> not_tiny st -> asks_ahead st tl tout itask -> (0 < g_mxstep c < fuel)%nat ->
  exists N st' t r, forall rfuel, (N <= rfuel)%nat -> solve prob ewt_set fuel rfuel st tout tret itask = Ret (st', t, r).
Proof.
  intros Hs Hn Hw Ht Ha Hm. destruct (forward_well yy0 yp0 st tl Hw) as (Hr & G).
  refine (C87_call_returns_partial u rnd Hf prob ewt_set Hl c Hc Ht0 Hts yy0 yp0 st fuel tout tret itask Hs Hn Hr
    (well_ready st tout itask _ Ht _) Hm).
  - destruct G as [(G & _)|G]; auto.
  - intros Hz. destruct G as [(_ & G)|G]; [|destruct (Hz G)]. rewrite G. exact (Ha Hz).
Qed.
End Rnd.

Print Assumptions C88_forward_life_returns.

(** ** The hypotheses can be met *)
Require Import Verif.PropSolve Verif.Script Verif.ExampleR Verif.PropRoots Verif.ExampleRoot.
Open Scope R_scope.

Local Instance NLS_W : NLSolver R (script R) := ScriptNLS [].

(** A life with a root function, after its first call: the next output time may be
    ahead in normal mode too. *)
Example C88_forward_life_returns_hypotheses_met : exists (st : ida R (list nat) (script R)) tl, let rnd := fun x : R => x in
  f64_like (/ 9007199254740992) rnd /\ nls_lawful (T := R) (NSt := script R) /\ config_ok configQ /\
  rnd (g_t0 configQ) = g_t0 configQ /\ (forall ts, g_tstop configQ = Some ts -> rnd ts = ts) /\
  (forall (s : script R) (y : list R), exists s', nls_setup s y = Ret s') /\
  (forall (s : script R) (x : nlprob R (list nat)) y0 y w tol call, exists r,
     nls_solve _ (@ida_nlproblem R (list nat) (ScalarRnd rnd) _ (rootR above)) (model_size (rootR above)) s x y0 y w tol call = Ret r) /\
  @forward rnd (list nat) (script R) _ _ (rootR above) ewtR configQ [0] [1] st tl /\
  get_num_steps st <> 0%nat /\ (0 < nrtfn st)%nat /\ not_tiny st /\ asks_ahead st tl 1 Normal /\ (0 < g_mxstep configQ < 600)%nat.
Proof.
  destruct above_run as (f & f' & st & st1 & st2 & t1 & t2 & s2 & s3 & Hr0 & (st0 & E0 & Est) & E1 & Hr & Se & _). subst st.
  exists st1, t1. cbv zeta. split; [exact id_f64_like|]. split; [exact (script_lawful [])|]. split; [exact configQ_ok|].
  split; [reflexivity|]. split; [reflexivity|].
  split; [exact (script_setup_total [])|]. split; [exact (fun s x => script_solve_total (rootR above) [] s x)|].
  assert (Z0 : nst (configure configQ st0) = 0%nat) by exact (su_nst _ (fresh_startable above _ E0)).
  split.
  { eapply (fw_call (fun x => x)).
    5: exact E1. 4: exact I.
    - apply fw_new. exact E0.
    - intros C. destruct (C Z0).
    - intros C. destruct (C Z0). }
  pose proof (se_nst _ _ Se) as N. unfold get_num_steps. rewrite N. split; [discriminate|].
  split. { destruct (reached_cfg above st1 st1 Hr eq_refl) as (_ & _ & V & _). rewrite V. lia. }
  pose proof (se_hh _ _ Se) as Hh. pose proof (se_tn _ _ Se) as Tn.
  split; [|split; [|cbn; lia]].
  - intros _. unfold get_current_time, get_current_setp. rewrite Tn, !Rabs_pos_eq by lra. lra.
  - intros _ _. unfold get_current_setp.
    destruct (C46_one_step (rootR above) ewtR (script_lawful []) configQ [0] [1] _ _ _ _ _ _ _ configQ_ok Hr0 E1) as (Et & _).
    rewrite Et, Tn. nra.
Qed.
