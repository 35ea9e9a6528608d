(** * RootSearchRnd: root_find and r_check3 in arithmetic with rounding
    The counterpart of [RootFacts], built on the bounds of [RootRnd]. *)
Require Import List Arith Bool Lia Reals Lra Psatz.
Import ListNotations.
Require Import Verif.Base Verif.Scalar Verif.ScalarR Verif.RoundR Verif.Dense Verif.Norms Verif.Newton Verif.NewtonSpec
  Verif.IdaState Verif.IdaNls Verif.IdaCore Verif.IdaRoots Verif.IdaSolve Verif.BaseFacts Verif.NewtonFacts
  Verif.IdaFacts Verif.IdaLoops Verif.IdaStep Verif.IdaSpec Verif.IdaShell Verif.IdaReach Verif.IdaInterp Verif.RootRnd.
Require Verif.RootFacts.
Open Scope R_scope.

Section Search.
Variables (u : R) (rnd : R -> R).
Hypothesis Hrn : rounding u rnd.
Hypothesis Hu : u <= / 1000.
Local Instance SRs : Scalar R := ScalarRnd rnd.

(** ** The scans *)

(** Component [i] is watched, its direction is not excluded, and it changes sign
    between the two ends; or vanishes at the right end. *)
Definition crosses (ga : list bool) (rd : list nat) (gl gh : list R) (i : nat) : Prop :=
  bget ga i = true /\ INR (nget rd i) * vget gl i <= 0 /\ vget gl i * vget gh i < 0.
Definition vanishes (ga : list bool) (rd : list nat) (gl gh : list R) (i : nat) : Prop :=
  bget ga i = true /\ INR (nget rd i) * vget gl i <= 0 /\ vget gh i = 0.

Lemma abs_zero x : Reqb (Rabs x) 0 = true <-> x = 0.
Proof.
  rewrite Reqb_true. split; intros Hx; [|subst; apply Rabs_R0].
  destruct (Req_dec x 0) as [E|E]; [exact E|]. exfalso. exact (Rabs_no_R0 x E Hx).
Qed.
Lemma abs_nonzero x : Reqb (Rabs x) 0 = false <-> x <> 0.
Proof. rewrite <- not_true_iff_false, abs_zero. tauto. Qed.

Lemma scan2_scan1 ga rd gl gh acc i : @scan2_body R SRs ga rd gl gh acc i = scan1_body ga rd gl gh acc i.
Proof.
  destruct acc as (((z & s) & m) & im). unfold scan2_body, scan1_body, dir_ok. cbn.
  destruct (bget ga i); [|reflexivity].
  destruct (Reqb (Rabs (vget gh i)) 0) eqn:Ez; cbn; [|reflexivity].
  apply abs_zero in Ez. rewrite Ez. destruct (Rleb (rnd (rnd (INR (nget rd i)) * vget gl i)) 0) eqn:Ed; [reflexivity|].
  rewrite andb_false_r. reflexivity.
Qed.

Lemma scan_fold ga rd gl gh im0 : forall k,
  let '(z, s, m, im) := fold_left (@scan1_body R SRs ga rd gl gh) (seq 0 k) (false, false, 0, im0) in
  0 <= m /\ (s = false -> m = 0) /\ (s = false -> im = im0) /\
  (z = true <-> exists i, (i < k)%nat /\ vanishes ga rd gl gh i) /\
  (s = true <-> exists i, (i < k)%nat /\ crosses ga rd gl gh i) /\
  (s = true -> (im < k)%nat /\ crosses ga rd gl gh im).
Proof.
  induction k as [|k IH].
  - cbn. repeat split; try lra; try reflexivity; try discriminate; try (intros (i & L & _); lia).
  - rewrite seq_S, fold_left_app. cbn [Nat.add fold_left].
    destruct (fold_left _ _ _) as (((z & s) & m) & im). destruct IH as (I0 & I1 & I2 & I3 & I4 & I5).
    assert (Hz : forall P : nat -> Prop, (exists i, (i < S k)%nat /\ P i) <-> (exists i, (i < k)%nat /\ P i) \/ P k).
    { intros P. split.
      - intros (i & L & Hi). destruct (Nat.eq_dec i k) as [->|Ne]; [auto|]. left. exists i. split; [lia|exact Hi].
      - intros [(i & L & Hi)|Hk]; [exists i|exists k]; split; auto. }
    assert (Hnz : ~ vanishes ga rd gl gh k -> (z = true <-> exists i, (i < S k)%nat /\ vanishes ga rd gl gh i)).
    { intros N. rewrite Hz, <- I3. tauto. }
    assert (Hns : ~ crosses ga rd gl gh k ->
        (s = true <-> exists i, (i < S k)%nat /\ crosses ga rd gl gh i) /\
        (s = true -> (im < S k)%nat /\ crosses ga rd gl gh im)).
    { intros N. rewrite Hz, <- I4. split; [tauto|]. intros Hs. destruct (I5 Hs) as (L & C). split; [lia|exact C]. }
    unfold scan1_body, dir_ok. cbn.
    destruct (bget ga k) eqn:Ea.
    2:{ assert (N1 : ~ vanishes ga rd gl gh k) by (intros (X & _); congruence).
        assert (N2 : ~ crosses ga rd gl gh k) by (intros (X & _); congruence).
        specialize (Hnz N1). destruct (Hns N2). tauto. }
    destruct (Reqb (Rabs (vget gh k)) 0) eqn:Ez.
    { apply abs_zero in Ez.
      assert (N2 : ~ crosses ga rd gl gh k) by (intros (_ & _ & X); rewrite Ez, Rmult_0_r in X; lra).
      destruct (Hns N2) as (N3 & N4).
      destruct (Rleb (rnd (rnd (INR (nget rd k)) * vget gl k)) 0) eqn:Ed.
      - apply Rleb_true in Ed. apply (rnd_le0_2 u rnd Hrn Hu) in Ed. assert (V : vanishes ga rd gl gh k) by (repeat split; assumption).
        split; [exact I0|]. split; [exact I1|]. split; [exact I2|]. split; [|tauto].
        rewrite Hz. split; auto.
      - apply Rleb_false in Ed. assert (Ed' : ~ INR (nget rd k) * vget gl k <= 0) by (rewrite <- (rnd_le0_2 u rnd Hrn Hu); lra). assert (N1 : ~ vanishes ga rd gl gh k) by (intros (_ & X & _); lra).
        specialize (Hnz N1). tauto. }
    apply abs_nonzero in Ez.
    assert (N1 : ~ vanishes ga rd gl gh k) by (intros (_ & _ & X); contradiction).
    specialize (Hnz N1).
    destruct (Rltb (rnd (vget gl k * vget gh k)) 0) eqn:Es; cbn.
    2:{ apply Rltb_false in Es. assert (Es' : ~ vget gl k * vget gh k < 0) by (rewrite <- (rnd_lt0 u rnd Hrn Hu); lra). assert (N2 : ~ crosses ga rd gl gh k) by (intros (_ & _ & X); lra).
        destruct (Hns N2). tauto. }
    apply Rltb_true in Es. apply (proj1 (rnd_lt0 u rnd Hrn Hu _)) in Es.
    destruct (Rleb (rnd (rnd (INR (nget rd k)) * vget gl k)) 0) eqn:Ed.
    2:{ apply Rleb_false in Ed. assert (Ed' : ~ INR (nget rd k) * vget gl k <= 0) by (rewrite <- (rnd_le0_2 u rnd Hrn Hu); lra). assert (N2 : ~ crosses ga rd gl gh k) by (intros (_ & X & _); lra).
        destruct (Hns N2). tauto. }
    apply Rleb_true in Ed. apply (rnd_le0_2 u rnd Hrn Hu) in Ed.
    assert (C : crosses ga rd gl gh k) by (repeat split; assumption).
    assert (Hf : 0 < Rabs (rnd (vget gh k / rnd (vget gh k - vget gl k)))).
    { apply Rabs_pos_lt. intros Hq. apply (proj1 (rnd_eq0 u rnd Hrn Hu _)) in Hq. unfold Rdiv in Hq. apply Rmult_integral in Hq. destruct Hq as [Hq|Hq]; [contradiction|].
      assert (Hd : rnd (vget gh k - vget gl k) <> 0).
      { intros E. apply (proj1 (rnd_eq0 u rnd Hrn Hu _)) in E. assert (vget gh k = vget gl k) by lra. rewrite H in Es. pose proof (Rle_0_sqr (vget gl k)). unfold Rsqr in *. lra. }
      exact (Rinv_neq_0_compat _ Hd Hq). }
    destruct (Rltb m (Rabs (rnd (vget gh k / rnd (vget gh k - vget gl k))))) eqn:Em.
    + split; [lra|]. split; [discriminate|]. split; [discriminate|]. split; [exact Hnz|]. split.
      * split; [|reflexivity]. intros _. exists k. split; [lia|exact C].
      * intros _. split; [lia|exact C].
    + apply Rltb_false in Em. destruct s.
      2:{ rewrite (I1 eq_refl) in Em. lra. }
      split; [exact I0|]. split; [exact I1|]. split; [exact I2|]. split; [exact Hnz|]. destruct (I5 eq_refl) as (L & C').
      split; [|intros _; split; [lia|exact C']]. split; [|reflexivity]. intros _. exists k. split; [lia|exact C].
Qed.

Context {LSt NSt : Type} `{LSolver R LSt} `{NLSolver R NSt}.
Variable prob : problem R.
Notation n := (model_size prob).
Notation nr := (num_roots prob).
Notation state := (ida R LSt NSt).
Notation tr st := (trace (lp (nlp st))).

Lemma scan1_spec ga rd gl gh z s m im : scan1 prob ga rd gl gh = (z, s, m, im) ->
  (z = true <-> exists i, (i < nr)%nat /\ vanishes ga rd gl gh i) /\
  (s = true <-> exists i, (i < nr)%nat /\ crosses ga rd gl gh i) /\
  (s = true -> (im < nr)%nat /\ crosses ga rd gl gh im).
Proof.
  intros E. unfold scan1 in E. cbn in E. pose proof (scan_fold ga rd gl gh 0 nr) as S. rewrite E in S. tauto.
Qed.

Lemma scan2_spec ga rd gl gh im0 z s m im : scan2 prob ga rd gl gh im0 = (z, s, m, im) ->
  (z = true <-> exists i, (i < nr)%nat /\ vanishes ga rd gl gh i) /\
  (s = true <-> exists i, (i < nr)%nat /\ crosses ga rd gl gh i) /\
  (s = true -> (im < nr)%nat /\ crosses ga rd gl gh im) /\ (s = false -> im = im0).
Proof.
  intros E. unfold scan2 in E. cbn in E. pose proof (scan_fold ga rd gl gh im0 nr) as S.
  assert (F : forall l acc, fold_left (@scan2_body R SRs ga rd gl gh) l acc = fold_left (scan1_body ga rd gl gh) l acc).
  { induction l as [|a l IH]; intros acc; cbn [fold_left]; [reflexivity|]. rewrite scan2_scan1. apply IH. }
  rewrite F in E. rewrite E in S. tauto.
Qed.

(** ** The loop *)

(** [g] was computed at time [t] by one of the calls [evs], at the interpolated solution
    when the time is accepted. *)
Definition evald (st : state) (evs : list (event R)) (t : R) (g : list R) : Prop :=
  exists y yp, g = vtab nr (p_root prob t y yp) /\ In (CRoot t y yp) evs /\
    (time_check st t = None -> y = interp_y prob st t /\ yp = interp_yp prob st t).

Lemma evald_core (a b : state) e1 e2 t g : core a = core b -> (forall e, In e e1 -> In e e2) ->
  evald a e1 t g -> evald b e2 t g.
Proof.
  intros C Hi (y & yp & E & Ht & V). destruct (core_interp prob a b C t) as (C1 & C2 & C3).
  exists y, yp. split; [exact E|]. split; [exact (Hi _ Ht)|]. rewrite <- C1, <- C2, <- C3. exact V.
Qed.

Lemma shell_in (a b : state) : shell prob a b -> forall e, In e (tr a) -> In e (tr b).
Proof. intros S e Hi. destruct (sh_trace _ _ _ S) as (evs & -> & _). apply in_or_app. auto. Qed.

Lemma evald_length (st : state) evs t g : evald st evs t g -> length g = nr.
Proof. intros (y & yp & -> & _). apply vtab_length. Qed.

Record srch (st st' : state) : Prop := mksrch {
  sr_shell : shell prob st st';
  sr_same : gactive st' = gactive st /\ ttol st' = ttol st;
  sr_lo : (tlo st' = tlo st /\ glo st' = glo st) \/ evald st (tr st') (tlo st') (glo st');
  sr_hi : (thi st' = thi st /\ ghi st' = ghi st) \/ evald st (tr st') (thi st') (ghi st');
  sr_pos : exists a b, 0 <= a < b /\ b <= 1 /\ tlo st' = tlo st + a * (thi st - tlo st) /\
    thi st' = tlo st + b * (thi st - tlo st);
  sr_evals : (nge st <= nge st')%nat /\
    Rabs (thi st' - tlo st') + INR (nge st' - nge st) * (ttol st / 4) <= Rabs (thi st - tlo st) }.

Lemma srch_refl st : srch st st.
Proof.
  constructor; auto.
  - apply shell_refl.
  - exists 0, 1. repeat split; try lra.
  - split; [lia|]. rewrite Nat.sub_diag. cbn. lra.
Qed.

Lemma srch_trans a b c : srch a b -> srch b c -> srch a c.
Proof.
  intros [A1 (A2 & A2') A3 A4 (x & y & A5 & A6 & A7 & A8) (A9 & A10)] [B1 (B2 & B2') B3 B4 (x' & y' & B5 & B6 & B7 & B8) (B9 & B10)].
  assert (C : core b = core a) by apply (sh_core _ _ _ A1).
  constructor.
  - eapply shell_trans; eassumption.
  - split; congruence.
  - destruct B3 as [(-> & ->)|B3].
    + destruct A3 as [A3|A3]; [left; exact A3|]. right. eapply evald_core; [reflexivity|exact (shell_in _ _ B1)|exact A3].
    + right. exact (evald_core _ _ _ _ _ _ C (fun e h => h) B3).
  - destruct B4 as [(-> & ->)|B4].
    + destruct A4 as [A4|A4]; [left; exact A4|]. right. eapply evald_core; [reflexivity|exact (shell_in _ _ B1)|exact A4].
    + right. exact (evald_core _ _ _ _ _ _ C (fun e h => h) B4).
  - exists (x + x' * (y - x)), (x + y' * (y - x)).
    assert (0 <= x' * (y - x)) by (apply Rmult_le_pos; lra).
    assert (0 < (y' - x') * (y - x)) by (apply Rmult_lt_0_compat; lra).
    assert (0 <= (1 - y') * (y - x)) by (apply Rmult_le_pos; lra).
    repeat split; try lra.
    + rewrite B7, A7, A8. ring.
    + rewrite B8, A7, A8. ring.
  - split; [lia|]. replace (nge c - nge a)%nat with ((nge c - nge b) + (nge b - nge a))%nat by lia.
    rewrite plus_INR, A2' in *. lra.
Qed.

Notation ga st := (gactive st).
Notation rd st := (rootdir st).

Lemma shell_rootdir (a b : state) : shell prob a b -> rootdir b = rootdir a.
Proof.
  intros S. pose proof (core_fields _ _ (sh_core _ _ _ S)) as (C & _). unfold cfg in C. injection C. intros. assumption.
Qed.

Lemma shell_arr (a b : state) : shell prob a b -> arrays a -> arrays b /\ kused b = kused a.
Proof.
  intros S A. pose proof (core_fields _ _ (sh_core _ _ _ S)) as C. pose proof (sh_cvals _ _ _ S). pose proof (sh_dvals _ _ _ S).
  destruct C as (_ & C1 & C2 & C3 & C4 & C5 & C6 & _ & C7 & _). unfold arrays in *.
  rewrite C1, C2, C3, C4, C5, C6, C7. repeat split; try tauto; destruct A as (_ & _ & _ & _ & _ & _ & A7 & A8); congruence.
Qed.

(** One evaluation of the root functions at the solution interpolated at [t]. *)
Lemma eval_at (st : state) t : arrays st -> (kused st <= 5)%nat -> exists s r,
  get_solution prob st t = Ret (s, r) /\ rootst s = rootst st /\ shell prob st s /\
  evald st [CRoot t (yy (nlp s)) (yp (nlp s))] t (vtab nr (p_root prob t (yy (nlp s)) (yp (nlp s)))).
Proof.
  intros A K. destruct (gs_ret prob st t A K) as (s & E). exists s. eexists. split; [exact E|].
  pose proof (gs_eval prob st s t _ A K E) as G. pose proof (get_solution_shell prob st t s _ E) as S.
  pose proof (get_solution_frame _ _ _ _ _ E) as F. split; [|split; [exact S|]].
  - tauto.
  - exists (yy (nlp s)), (yp (nlp s)). split; [reflexivity|]. split; [left; reflexivity|]. intros Hc. rewrite Hc in G. tauto.
Qed.

Record watch (st : state) (im : nat) : Prop := mkwatch {
  w_im : (im < nr)%nat;
  w_cross : crosses (ga st) (rd st) (glo st) (ghi st) im;
  w_hi : length (ghi st) = nr;
  w_lo : length (glo st) = nr }.

(** What the search ends with. *)
Definition located (st : state) : Prop :=
  (Rabs (rnd (thi st - tlo st)) <= ttol st /\ exists im, watch st im) \/
  ((exists i, (i < nr)%nat /\ vanishes (ga st) (rd st) (glo st) (ghi st) i) /\
   forall i, (i < nr)%nat -> ~ crosses (ga st) (rd st) (glo st) (ghi st) i).

Lemma aget_len (l : list R) i : (i < length l)%nat -> aget l i = Ret (vget l i).
Proof.
  intros L. unfold aget, vget. destruct (nth_error l i) eqn:E.
  - f_equal. symmetry. apply nth_error_nth. exact E.
  - apply nth_error_None in E. lia.
Qed.

Lemma next_alph_pos alph sp side : 0 < alph -> 0 < next_alph alph sp side.
Proof.
  intros Ha. unfold next_alph. destruct sp as [k|]; [|cbn; lra]. destruct (k =? side); [|cbn; lra].
  destruct (side =? 2); cbn; apply (rnd_gt0 u rnd Hrn Hu); lra.
Qed.

Lemma prod_neg a b : a * b < 0 <-> (a < 0 /\ 0 < b) \/ (0 < a /\ b < 0).
Proof.
  split.
  - intros L. destruct (Rtotal_order a 0) as [A|[A|A]].
    + left. split; [exact A|]. destruct (Rle_lt_dec b 0) as [B|B]; [|exact B]. exfalso.
      assert (0 <= (-a) * (-b)) by (apply Rmult_le_pos; lra). lra.
    + subst. lra.
    + right. split; [exact A|]. destruct (Rle_lt_dec 0 b) as [B|B]; [|exact B]. exfalso.
      assert (0 <= a * b) by (apply Rmult_le_pos; lra). lra.
  - intros [(A & B)|(A & B)].
    + assert (0 < (-a) * b) by (apply Rmult_lt_0_compat; lra). lra.
    + assert (0 < a * (-b)) by (apply Rmult_lt_0_compat; lra). lra.
Qed.

(** The searched component keeps its sign change when the left end moves. *)
Lemma crosses_left gact rdir gl gm gh im :
  crosses gact rdir gl gh im -> ~ crosses gact rdir gl gm im -> ~ vanishes gact rdir gl gm im ->
  crosses gact rdir gm gh im.
Proof.
  intros (C1 & C2 & C3) N1 N2. unfold crosses, vanishes in *. split; [exact C1|].
  assert (Hnz : vget gm im <> 0) by tauto. assert (Hns : ~ vget gl im * vget gm im < 0) by tauto.
  assert (Hs : (0 < vget gl im /\ 0 < vget gm im) \/ (vget gl im < 0 /\ vget gm im < 0)).
  { rewrite prod_neg in Hns. apply prod_neg in C3. destruct C3 as [(A & B)|(A & B)].
    - right. split; [exact A|]. destruct (Rtotal_order (vget gm im) 0) as [X|[X|X]]; [exact X|contradiction|].
      exfalso. apply Hns. left. auto.
    - left. split; [exact A|]. destruct (Rtotal_order (vget gm im) 0) as [X|[X|X]]; [|contradiction|exact X].
      exfalso. apply Hns. right. auto. }
  pose proof (pos_INR (nget rdir im)) as Hp. apply prod_neg in C3. split.
  - destruct Hs as [(A & B)|(A & B)].
    + assert (Hi0 : INR (nget rdir im) = 0).
      { destruct (Rle_lt_or_eq_dec _ _ Hp) as [L|L]; [|auto]. exfalso.
        assert (0 < INR (nget rdir im) * vget gl im) by (apply Rmult_lt_0_compat; lra). lra. }
      rewrite Hi0. lra.
    + assert (0 <= INR (nget rdir im) * - vget gm im) by (apply Rmult_le_pos; lra). lra.
  - apply prod_neg. destruct Hs as [(A & B)|(A & B)]; destruct C3 as [(X & Y)|(X & Y)]; try lra; tauto.
Qed.

(** The interval after one pass. *)
Lemma narrow lo hi th tol : 0 < tol -> 0 < th < 1 -> tol / 4 <= th * Rabs (hi - lo) <= Rabs (hi - lo) - tol / 4 ->
  Rabs (lo + th * (hi - lo) - lo) + 1 * (tol / 4) <= Rabs (hi - lo) /\
  Rabs (hi - (lo + th * (hi - lo))) + 1 * (tol / 4) <= Rabs (hi - lo).
Proof.
  intros Ht Hth Hb. replace (lo + th * (hi - lo) - lo) with (th * (hi - lo)) by ring.
  replace (hi - (lo + th * (hi - lo))) with ((1 - th) * (hi - lo)) by ring.
  rewrite !Rabs_mult, (Rabs_pos_eq th), (Rabs_pos_eq (1 - th)) by lra. lra.
Qed.

(** The ends are small compared with the tolerance divided by the unit roundoff. *)
Definition roomy (st : state) : Prop := exists B, Rabs (tlo st) <= B /\ Rabs (thi st) <= B /\ 60 * u * B <= ttol st.

Definition lo_hi (lo hi th : R) : R := lo + th * (hi - lo).
Lemma lo_hi_le lo hi th B : Rabs lo <= B -> Rabs hi <= B -> 0 < th < 1 -> Rabs (lo_hi lo hi th) <= B.
Proof.
  intros A C Ht. unfold lo_hi. replace (lo + th * (hi - lo)) with ((1 - th) * lo + th * hi) by ring.
  pose proof (Rabs_triang ((1 - th) * lo) (th * hi)) as T. rewrite !Rabs_mult, (Rabs_pos_eq (1 - th)), (Rabs_pos_eq th) in T by lra. nra.
Qed.

(** One pass: the bracket narrows, or the search ends. *)
Lemma root_loop_spec fuel : forall (st : state) alph sp side im,
  arrays st -> (kused st <= 5)%nat -> 0 < alph -> 0 < ttol st -> roomy st -> watch st im ->
  (root_loop prob fuel st alph sp side im = Diverge /\ INR fuel * (ttol st / 4) < Rabs (thi st - tlo st) + ttol st / 4) \/
  exists st', root_loop prob fuel st alph sp side im = Ret st' /\ srch st st' /\ located st'.
Proof.
  induction fuel as [|fuel IH]; intros st alph sp side im A K Ha Ht Hb W.
  { left. split; [reflexivity|]. cbn. pose proof (Rabs_pos (thi st - tlo st)). lra. }
  cbn [root_loop]. change (sabs (thi st - tlo st)%sc <=? ttol st)%sc with (Rleb (Rabs (rnd (thi st - tlo st))) (ttol st)).
  destruct (Rleb (Rabs (rnd (thi st - tlo st))) (ttol st)) eqn:Ec.
  { apply Rleb_true in Ec. right. exists st. split; [reflexivity|]. split; [apply srch_refl|]. left. eauto. }
  apply Rleb_false in Ec.
  set (al := next_alph alph sp side). assert (Hal : 0 < al) by (apply next_alph_pos; exact Ha).
  destruct W as [W1 W2 W3 W4]. rewrite (aget_len _ im) by lia. cbn [bind]. rewrite (aget_len _ im) by lia. cbn [bind].
  destruct Hb as (B & B1 & B2 & B3).
  destruct (next_tmid_rnd u rnd Hrn Hu (tlo st) (thi st) (ttol st) B al (vget (glo st) im) (vget (ghi st) im) (conj Ht Ec) B1 B2 B3 Hal)
    as (th & T1 & T2 & T3); [exact (proj2 (proj2 W2))|].
  change (RootRnd.SR rnd) with SRs in T2.
  assert (Bm : Rabs (lo_hi (tlo st) (thi st) th) <= B) by (apply lo_hi_le; try assumption; lra). unfold lo_hi in Bm. rewrite <- T2 in Bm.
  destruct (narrow (tlo st) (thi st) th (ttol st) Ht T1 T3) as (Nlo & Nhi). rewrite <- T2 in Nlo, Nhi.
  set (tm := next_tmid (tlo st) (thi st) (ttol st) al (vget (glo st) im) (vget (ghi st) im)) in *.
  destruct (eval_at st tm A K) as (s & r & E & Rs & Sh & Ev). rewrite E. cbn [bind].
  destruct (call_root prob s tm (yy (nlp s)) (yp (nlp s))) as (s1, g) eqn:Er.
  pose proof (root_grout_shell prob _ _ _ _ _ _ Er) as Sg.
  assert (Eg : g = vtab nr (p_root prob tm (yy (nlp s)) (yp (nlp s)))) by (unfold call_root in Er; congruence).
  rewrite <- Eg in Ev. pose proof (evald_length _ _ _ _ Ev) as Lg.
  pose proof (shell_call prob _ _ _ _ _ _ Er) as (_ & _ & _ & _ & Rc & _ & _ & Tc & _).
  set (s2 := set_nge (nge s1 + 1) (set_grout g s1)) in *.
  assert (Ev2 : evald st (tr s2) tm g).
  { eapply evald_core; [reflexivity| |exact Ev]. intros e [<-|[]]. change (tr s2) with (tr s1). rewrite Tc. left. reflexivity. }
  clear Ev. rename Ev2 into Ev.
  assert (S2 : shell prob st s2) by (eapply shell_trans; eassumption).
  assert (F : rootst s1 = rootst st) by congruence. apply rootst_fields in F.
  assert (F1 : glo s2 = glo st /\ ghi s2 = ghi st /\ tlo s2 = tlo st /\ thi s2 = thi st /\ ttol s2 = ttol st /\
     gactive s2 = gactive st /\ nge s2 = (nge st + 1)%nat /\ grout s2 = g).
  { unfold s2. cbn. repeat split; try (apply F). f_equal. apply F. }
  clearbody s2. clear F Er Sg Rc Tc E Sh Rs s1 s r Eg.
  destruct F1 as (F1 & F2 & F3 & F4 & F5 & F6 & F7 & F8).
  pose proof (shell_rootdir _ _ S2) as F9. rewrite F1, F6, F8, F9.
  destruct (scan2 prob (gactive st) (rootdir st) (glo st) g im) as (((z & sg) & mf) & im') eqn:Es.
  apply scan2_spec in Es. destruct Es as (Z1 & Z2 & Z3 & Z4).
  assert (Hinr : INR (nge st + 1 - nge st) = 1) by (replace (nge st + 1 - nge st)%nat with 1%nat by lia; reflexivity).
  destruct sg.
  - (* the right end moves *)
    set (s3 := set_ghi g (set_thi tm s2)).
    assert (Q3 : shell prob st s3).
    { eapply shell_trans; [exact S2|]. apply shell_quiet; [reflexivity|left; reflexivity|reflexivity|reflexivity|auto|reflexivity|reflexivity|reflexivity]. }
    destruct (Z3 eq_refl) as (L' & C').
    assert (Ev3 : evald st (tr s3) tm g) by exact Ev.
    assert (G3 : glo s3 = glo st /\ ghi s3 = g /\ tlo s3 = tlo st /\ thi s3 = tm /\ ttol s3 = ttol st /\
       gactive s3 = gactive st /\ nge s3 = (nge st + 1)%nat) by (unfold s3; cbn; tauto).
    clearbody s3. destruct G3 as (G1 & G2 & G3 & G4 & G5 & G6 & G7). pose proof (shell_rootdir _ _ Q3) as G8.
    assert (Rm : roomy s3) by (exists B; rewrite G3, G4, G5; auto).
    assert (W' : watch s3 im') by (constructor; rewrite ?G6, ?G8, ?G1, ?G2; auto).
    assert (R3 : srch st s3).
    { constructor; rewrite ?G1, ?G2, ?G3, ?G4, ?G5, ?G6, ?G7, ?Hinr; auto.
      - exists 0, th. repeat split; try lra.
      - split; [lia|exact Nlo]. }
    change (sabs (thi s3 - tlo s3)%sc <=? ttol s3)%sc with (Rleb (Rabs (rnd (thi s3 - tlo s3))) (ttol s3)).
    destruct (Rleb (Rabs (rnd (thi s3 - tlo s3))) (ttol s3)) eqn:Ec3.
    { apply Rleb_true in Ec3. right. exists s3. split; [reflexivity|]. split; [exact R3|]. left. eauto. }
    destruct (shell_arr _ _ Q3 A) as (A3 & K3).
    destruct (IH s3 al (Some side) 1%nat im' A3 ltac:(lia) Hal ltac:(lra) Rm W') as [(I1 & I2)|(st' & I1 & I2 & I3)].
    + left. split; [exact I1|]. rewrite S_INR, G5, G4, G3 in *. lra.
    + right. exists st'. split; [exact I1|]. split; [|exact I3]. eapply srch_trans; eassumption.
  - assert (N1 : forall i, (i < nr)%nat -> ~ crosses (ga st) (rd st) (glo st) g i).
    { intros i Li C. assert (false = true) by (apply Z2; eauto). discriminate. }
    specialize (Z4 eq_refl). subst im'. destruct z.
    + (* an exact zero *)
      set (s3 := set_ghi g (set_thi tm s2)).
      assert (Q3 : shell prob st s3).
      { eapply shell_trans; [exact S2|]. apply shell_quiet; [reflexivity|left; reflexivity|reflexivity|reflexivity|auto|reflexivity|reflexivity|reflexivity]. }
      assert (Ev3 : evald st (tr s3) tm g) by exact Ev.
    assert (G3 : glo s3 = glo st /\ ghi s3 = g /\ tlo s3 = tlo st /\ thi s3 = tm /\ ttol s3 = ttol st /\
         gactive s3 = gactive st /\ nge s3 = (nge st + 1)%nat) by (unfold s3; cbn; tauto).
      clearbody s3. destruct G3 as (G1 & G2 & G3 & G4 & G5 & G6 & G7). pose proof (shell_rootdir _ _ Q3) as G8.
      right. exists s3. split; [reflexivity|]. split.
      { constructor; rewrite ?G1, ?G2, ?G3, ?G4, ?G5, ?G6, ?G7, ?Hinr; auto.
        - exists 0, th. repeat split; try lra.
        - split; [lia|exact Nlo]. }
      right. rewrite G6, G8, G1, G2. split; [apply Z1; reflexivity|exact N1].
    + assert (N2 : ~ vanishes (ga st) (rd st) (glo st) g im).
      { intros V. assert (false = true) by (apply Z1; eauto). discriminate. }
      set (s3 := set_glo g (set_tlo tm s2)).
      assert (Q3 : shell prob st s3).
      { eapply shell_trans; [exact S2|]. apply shell_quiet; [reflexivity|left; reflexivity|reflexivity|reflexivity|intros _; exact Lg|reflexivity|reflexivity|reflexivity]. }
      assert (Ev3 : evald st (tr s3) tm g) by exact Ev.
      assert (G3 : glo s3 = g /\ ghi s3 = ghi st /\ tlo s3 = tm /\ thi s3 = thi st /\ ttol s3 = ttol st /\
         gactive s3 = gactive st /\ nge s3 = (nge st + 1)%nat) by (unfold s3; cbn; tauto).
      clearbody s3. destruct G3 as (G1 & G2 & G3 & G4 & G5 & G6 & G7). pose proof (shell_rootdir _ _ Q3) as G8.
      assert (Rm : roomy s3) by (exists B; rewrite G3, G4, G5; auto).
      assert (W' : watch s3 im).
      { constructor; rewrite ?G6, ?G8, ?G1, ?G2; auto. eapply crosses_left; [exact W2|apply N1; exact W1|exact N2]. }
      assert (R3 : srch st s3).
      { constructor; rewrite ?G1, ?G2, ?G3, ?G4, ?G5, ?G6, ?G7, ?Hinr; auto.
        - exists th, 1. repeat split; try lra.
        - split; [lia|exact Nhi]. }
      change (sabs (thi s3 - tlo s3)%sc <=? ttol s3)%sc with (Rleb (Rabs (rnd (thi s3 - tlo s3))) (ttol s3)).
      destruct (Rleb (Rabs (rnd (thi s3 - tlo s3))) (ttol s3)) eqn:Ec3.
      { apply Rleb_true in Ec3. right. exists s3. split; [reflexivity|]. split; [exact R3|]. left. eauto. }
      destruct (shell_arr _ _ Q3 A) as (A3 & K3).
      destruct (IH s3 al (Some side) 2%nat im A3 ltac:(lia) Hal ltac:(lra) Rm W') as [(I1 & I2)|(st' & I1 & I2 & I3)].
      * left. split; [exact I1|]. rewrite S_INR, G5, G4, G3 in *. lra.
      * right. exists st'. split; [exact I1|]. split; [|exact I3]. eapply srch_trans; eassumption.
Qed.

(** ** root_find and r_check3 *)

Definition hit (gact : list bool) (rdir : list nat) (gl gh : list R) (i : nat) : Prop :=
  crosses gact rdir gl gh i \/ vanishes gact rdir gl gh i.

(** The right end of the searched interval. *)
Definition right_end (st : state) : R :=
  match taskc st with
  | OneStep => tn (nlp st)
  | Normal => if (szero <=? (toutc st - tn (nlp st)) * hh st)%sc then tn (nlp st) else toutc st
  end.

Record found (st : state) (tl : R) (gl : list R) (st' : state) : Prop := mkfound {
  fo_left : (tl = tlo st /\ gl = glo st) \/ evald st (tr st') tl gl;
  fo_right : evald st (tr st') (tlo st') (glo st');
  fo_pos : exists a b, 0 <= a < b /\ b <= 1 /\ tl = tlo st + a * (right_end st - tlo st) /\
    tlo st' = tlo st + b * (right_end st - tlo st);
  fo_close : Rabs (rnd (tlo st' - tl)) <= root_ttol st \/
    forall i, (i < nr)%nat -> ~ crosses (ga st) (rd st) gl (glo st') i;
  fo_some : exists i, (i < nr)%nat /\ hit (ga st) (rd st) gl (glo st') i;
  fo_flags : length (iroots st') = nr /\ forall i, (i < nr)%nat ->
    (hit (ga st) (rd st) gl (glo st') i /\ vget (iroots st') i = Rsignum (vget gl i)) \/
    (~ hit (ga st) (rd st) gl (glo st') i /\ vget (iroots st') i = 0);
  fo_out : time_check st (tlo st') = None ->
    yy (nlp st') = interp_y prob st (tlo st') /\ yp (nlp st') = interp_yp prob st (tlo st') }.

Definition quiet_interval (st st' : state) : Prop :=
  tlo st' = right_end st /\ evald st (tr st') (right_end st) (glo st') /\ nge st' = (nge st + 1)%nat /\
  forall i, (i < nr)%nat -> ~ hit (ga st) (rd st) (glo st) (glo st') i.

Lemma hit_b1 (gact : list bool) rdir gl gh : (forall i, (i < nr)%nat -> ~ crosses gact rdir gl gh i) -> forall i, (i < nr)%nat ->
  (bget gact i && (Reqb (Rabs (vget gh i)) 0 && Rleb (rnd (rnd (INR (nget rdir i)) * vget gl i)) 0) = true <-> hit gact rdir gl gh i).
Proof.
  intros N i Li. rewrite !andb_true_iff, abs_zero, Rleb_true, (rnd_le0_2 u rnd Hrn Hu). unfold hit, vanishes. specialize (N i Li). tauto.
Qed.

Lemma hit_b2 (gact : list bool) rdir gl gh i :
  bget gact i && (Rleb (rnd (rnd (INR (nget rdir i)) * vget gl i)) 0 && (Reqb (Rabs (vget gh i)) 0 || Rltb (rnd (vget gl i * vget gh i)) 0)) = true
  <-> hit gact rdir gl gh i.
Proof.
  rewrite !andb_true_iff, orb_true_iff, abs_zero, Rleb_true, Rltb_true, (rnd_le0_2 u rnd Hrn Hu), (rnd_lt0 u rnd Hrn Hu). unfold hit, vanishes, crosses. tauto.
Qed.

Lemma flags_spec (gact : list bool) rdir gl gh (b : nat -> bool) :
  (forall i, (i < nr)%nat -> (b i = true <-> hit gact rdir gl gh i)) ->
  let ir := vtab nr (fun i => if b i then Rsignum (vget gl i) else 0) in
  length ir = nr /\ forall i, (i < nr)%nat ->
    (hit gact rdir gl gh i /\ vget ir i = Rsignum (vget gl i)) \/ (~ hit gact rdir gl gh i /\ vget ir i = 0).
Proof.
  intros Hb. cbv zeta. split; [apply vtab_length|]. intros i Li. 
  assert (Ev : vget (vtab nr (fun i => if b i then Rsignum (vget gl i) else 0)) i = if b i then Rsignum (vget gl i) else 0).
  { unfold vget at 1. rewrite nth_vtab by exact Li. reflexivity. }
  rewrite Ev.
  destruct (b i) eqn:E; [left|right]; (split; [|reflexivity]).
  - apply Hb; assumption.
  - intros X. apply Hb in X; [|exact Li]. congruence.
Qed.

Lemma act_spec (gact : list bool) (g : list R) i : (i < nr)%nat ->
  bget (vtab nr (fun i => if negb (bget gact i) && sneqb (vget g i) szero then true else bget gact i)) i = true <->
  bget gact i = true \/ vget g i <> 0.
Proof.
  intros Li. unfold bget at 1. rewrite nth_vtab by exact Li. unfold sneqb. cbn.
  destruct (bget gact i); cbn; [tauto|]. destruct (Reqb (vget g i) 0) eqn:E; cbn.
  - apply Reqb_true in E. split; [discriminate|]. intros [X|X]; [discriminate|contradiction].
  - apply Reqb_false in E. tauto.
Qed.

Lemma root_find_spec fuel (st : state) :
  arrays st -> (kused st <= 5)%nat -> 0 < ttol st -> roomy st -> length (glo st) = nr -> length (ghi st) = nr ->
  (root_find prob fuel st = Diverge /\ INR fuel * (ttol st / 4) < Rabs (thi st - tlo st) + ttol st / 4) \/
  (exists st', root_find prob fuel st = Ret (st', RootContinue) /\ st' = set_grout (ghi st) (set_trout (thi st) st) /\
     forall i, (i < nr)%nat -> ~ hit (ga st) (rd st) (glo st) (ghi st) i) \/
  (exists s st', root_find prob fuel st = Ret (st', RootFound) /\ srch st s /\ shell prob s st' /\
     trout st' = thi s /\ grout st' = ghi s /\ gactive st' = gactive st /\ nge st' = nge s /\
     (Rabs (rnd (thi s - tlo s)) <= ttol st \/ forall i, (i < nr)%nat -> ~ crosses (ga st) (rd st) (glo s) (ghi s) i) /\
     (exists i, (i < nr)%nat /\ hit (ga st) (rd st) (glo s) (ghi s) i) /\
     length (iroots st') = nr /\ forall i, (i < nr)%nat ->
       (hit (ga st) (rd st) (glo s) (ghi s) i /\ vget (iroots st') i = Rsignum (vget (glo s) i)) \/
       (~ hit (ga st) (rd st) (glo s) (ghi s) i /\ vget (iroots st') i = 0)).
Proof.
  intros A K Ht Hb Ll Lh. unfold root_find.
  destruct (scan1 prob (gactive st) (rootdir st) (glo st) (ghi st)) as (((z & sg) & mf) & im) eqn:Es.
  apply scan1_spec in Es. destruct Es as (Z1 & Z2 & Z3). destruct sg; cbn [negb].
  - destruct (Z3 eq_refl) as (L & C).
    assert (W : watch st im) by (constructor; assumption).
    destruct (root_loop_spec fuel st (@sone R SRs) None 0%nat im A K Rlt_0_1 Ht Hb W) as [(D1 & D2)|(s & D1 & D2 & D3)].
    + left. rewrite D1. split; [reflexivity|exact D2].
    + right. right. rewrite D1. cbn [bind]. exists s. eexists. split; [reflexivity|]. split; [exact D2|].
      pose proof (sr_shell _ _ D2) as Sh. destruct (sr_same _ _ D2) as (S1 & S2). pose proof (shell_rootdir _ _ Sh) as S3.
      split; [apply shell_quiet; [reflexivity|left; reflexivity|reflexivity|reflexivity|auto|reflexivity|reflexivity|reflexivity]|].
      split; [reflexivity|]. split; [reflexivity|]. split; [exact S1|]. split; [reflexivity|].
      unfold located in D3. rewrite S1, S2, S3 in D3.
      split; [destruct D3 as [(D3 & _)|(_ & D3)]; auto|]. split.
      { destruct D3 as [(_ & im' & [V1 V2 _ _])|((i & Li & V) & _)].
        - rewrite S1, S3 in V2. exists im'. split; [exact V1|left; exact V2].
        - exists i. split; [exact Li|right; exact V]. }
      rewrite <- S1, <- S3.
      apply (flags_spec (gactive s) (rootdir s) (glo s) (ghi s)
        (fun i => bget (gactive s) i && (Rleb (rnd (rnd (INR (nget (rootdir s) i)) * vget (glo s) i)) 0 && (Reqb (Rabs (vget (ghi s) i)) 0 || Rltb (rnd (vget (glo s) i * vget (ghi s) i)) 0)))).
      intros i _. apply hit_b2.
  - assert (N : forall i, (i < nr)%nat -> ~ crosses (ga st) (rd st) (glo st) (ghi st) i).
    { intros i Li C. assert (false = true) by (apply Z2; eauto). discriminate. }
    right. destruct z; cbn [negb].
    + right. exists st. eexists. split; [reflexivity|]. split; [apply srch_refl|].
      split; [apply shell_quiet; [reflexivity|left; reflexivity|reflexivity|reflexivity|auto|reflexivity|reflexivity|reflexivity]|].
      split; [reflexivity|]. split; [reflexivity|]. split; [reflexivity|]. split; [reflexivity|].
      split; [right; exact N|]. split.
      { destruct (proj1 Z1 eq_refl) as (i & Li & V). exists i. split; [exact Li|right; exact V]. }
      apply (flags_spec (gactive st) (rootdir st) (glo st) (ghi st)
        (fun i => bget (gactive st) i && (Reqb (Rabs (vget (ghi st) i)) 0 && Rleb (rnd (rnd (INR (nget (rootdir st) i)) * vget (glo st) i)) 0))).
      apply hit_b1. exact N.
    + left. eexists. split; [reflexivity|]. split; [reflexivity|].
      intros i Li [C|V]; [exact (N i Li C)|]. assert (false = true) by (apply Z1; eauto). discriminate.
Qed.

Lemma r_check3_spec fuel (st : state) :
  arrays st -> (kused st <= 5)%nat -> 0 < root_ttol st ->
  (exists B, Rabs (tlo st) <= B /\ Rabs (right_end st) <= B /\ 60 * u * B <= root_ttol st) -> length (glo st) = nr ->
  (r_check3 prob fuel st = Diverge /\
     INR fuel * (root_ttol st / 4) < Rabs (right_end st - tlo st) + root_ttol st / 4) \/
  (exists st' r, r_check3 prob fuel st = Ret (st', r) /\ shell prob st st' /\ length (glo st') = nr /\
     (forall i, (i < nr)%nat -> bget (gactive st') i = true <-> bget (ga st) i = true \/ vget (glo st') i <> 0) /\
     (nge st + 1 <= nge st')%nat /\ INR (nge st' - (nge st + 1)) * (root_ttol st / 4) <= Rabs (right_end st - tlo st) /\
     match r with
     | RootContinue => quiet_interval st st'
     | RootFound => exists tl gl, found st tl gl st'
     end).
Proof.
  intros A K Ht Hb Ll. unfold r_check3. cbv zeta. fold (right_end st).
  set (s0 := set_thi (right_end st) st).
  assert (Q0 : shell prob st s0) by (apply shell_quiet; [reflexivity|left; reflexivity|reflexivity|reflexivity|auto|reflexivity|reflexivity|reflexivity]).
  assert (F0 : tlo s0 = tlo st /\ glo s0 = glo st /\ gactive s0 = gactive st /\ nge s0 = nge st /\ thi s0 = right_end st) by (unfold s0; cbn; tauto).
  assert (T0 : root_ttol s0 = root_ttol st) by reflexivity.
  destruct (shell_arr _ _ Q0 A) as (A0 & K0). clearbody s0.
  destruct F0 as (F1 & F2 & F3 & F4 & F5).
  destruct (eval_at s0 (thi s0) A0 ltac:(lia)) as (s & r & E & Rs & Sh & Ev). rewrite E. cbn [bind].
  rewrite !F5 in *.
  pose proof (rootst_fields _ _ Rs) as Rf. destruct Rf as (_ & Rf1 & Rf2 & _ & Rf3 & _ & _ & _ & _ & _ & _ & Rf4 & Rf5).
  replace (thi s) with (right_end st) by congruence.
  destruct (call_root prob s (right_end st) (yy (nlp s)) (yp (nlp s))) as (s1, g) eqn:Er.
  assert (Eg : g = vtab nr (p_root prob (right_end st) (yy (nlp s)) (yp (nlp s)))) by (unfold call_root in Er; congruence).
  rewrite <- Eg in Ev.
  pose proof (evald_length _ _ _ _ Ev) as Lg.
  pose proof (root_ghi_shell prob _ _ _ _ _ _ Er) as Sg.
  pose proof (shell_call prob _ _ _ _ _ _ Er) as (Cc & _ & _ & _ & Rc & _ & _ & Tc & _).
  apply rootst_fields in Rc. destruct Rc as (_ & Rc1 & Rc2 & _ & Rc3 & _ & _ & _ & _ & _ & _ & Rc4 & Rc5).
  set (s2 := set_nge (nge s1 + 1) (set_ghi g s1)) in *.
  set (s3 := set_ttol (root_ttol s2) s2).
  assert (Q3 : shell prob st s3).
  { eapply shell_trans; [exact Q0|]. eapply shell_trans; [exact Sh|]. eapply shell_trans; [exact Sg|].
    apply shell_quiet; [reflexivity|left; reflexivity|reflexivity|reflexivity|auto|reflexivity|reflexivity|reflexivity]. }
  assert (T3 : ttol s3 = root_ttol st).
  { unfold s3. cbn [ttol set_ttol]. rewrite <- T0. unfold root_ttol.
    pose proof (core_fields _ _ (sh_core _ _ _ Sg)) as C1. pose proof (core_fields _ _ (sh_core _ _ _ Sh)) as C2.
    destruct C1 as (_ & _ & _ & _ & _ & _ & _ & _ & _ & _ & _ & _ & C1 & _ & _ & _ & _ & _ & C1' & _).
    destruct C2 as (_ & _ & _ & _ & _ & _ & _ & _ & _ & _ & _ & _ & C2 & _ & _ & _ & _ & _ & C2' & _). congruence. }
  assert (G3 : tlo s3 = tlo st /\ glo s3 = glo st /\ gactive s3 = gactive st /\ nge s3 = (nge st + 1)%nat /\
    thi s3 = right_end st /\ ghi s3 = g).
  { unfold s3, s2. cbn. repeat split; try congruence; lia. }
  assert (Ev3 : evald st (tr s3) (right_end st) g).
  { eapply evald_core; [|  |exact Ev]; [apply (sh_core _ _ _ Q0)|]. intros e [<-|[]]. change (tr s3) with (tr s1). rewrite Tc. left. reflexivity. }
  clearbody s3. clear s2 Sg. destruct G3 as (G1 & G2 & G3 & G4 & G5 & G6).
  pose proof (shell_rootdir _ _ Q3) as G7. destruct (shell_arr _ _ Q3 A) as (A3 & K3).
  pose proof (sh_core _ _ _ Q3) as C3.
  assert (Rm : roomy s3) by (unfold roomy; rewrite G1, G5, T3; exact Hb).
  destruct (root_find_spec fuel s3 A3 ltac:(lia) ltac:(lra) Rm ltac:(congruence) ltac:(congruence)) as [(D1 & D2)|[(x & D1 & D2 & D3)|(x & y & D)]].
  - left. rewrite D1. split; [reflexivity|]. rewrite T3, G1, G5 in D2. exact D2.
  - right. rewrite D1. cbn [bind]. eexists. eexists. split; [reflexivity|].
    rewrite G2, G3, G6, G7 in D3. subst x.
    split; [|split; [|split; [|split; [|split]]]].
    + eapply shell_trans; [exact Q3|].
      apply shell_quiet; [reflexivity|left; reflexivity|reflexivity|reflexivity|cbn; rewrite G6; auto|reflexivity|reflexivity|reflexivity].
    + cbn. rewrite G6. exact Lg.
    + intros i Li. rewrite <- G3. apply act_spec. exact Li.
    + cbn. lia.
    + cbn. rewrite G4, Nat.sub_diag. cbn. pose proof (Rabs_pos (right_end st - tlo st)). lra.
    + unfold quiet_interval. cbn. rewrite G4, G5, G6. auto.
  - right. destruct D as (D1 & D2 & D3 & D4 & D5 & D6 & D7 & D8 & D9 & D10 & D11). rewrite D1. cbn [bind].
    set (ua := set_gactive _ y). set (v := set_glo (grout ua) (set_tlo (trout ua) ua)).
    assert (Qv : shell prob x v).
    { eapply shell_trans; [exact D3|].
      apply shell_quiet; [reflexivity|left; reflexivity|reflexivity|reflexivity| |reflexivity|reflexivity|reflexivity].
      intros _. unfold v, ua. cbn. rewrite D5. destruct (sr_hi _ _ D2) as [(_ & X)|X]; [rewrite X, G6; exact Lg|exact (evald_length _ _ _ _ X)]. }
    assert (Qs : shell prob st v) by (eapply shell_trans; [exact Q3|]; eapply shell_trans; [exact (sr_shell _ _ D2)|exact Qv]).
    assert (Hv : trout v = thi x /\ tlo v = thi x /\ glo v = ghi x /\ nge v = nge x /\ iroots v = iroots y /\
      gactive v = vtab nr (fun i => if negb (bget (gactive y) i) && sneqb (vget (grout y) i) szero then true else bget (gactive y) i)).
    { unfold v, ua. cbn. rewrite D4, D5, D7. repeat split. }
    clearbody v. clear ua. destruct Hv as (V1 & V2 & V3 & V4 & V5 & V6).
    destruct (shell_arr _ _ Qs A) as (Av & Kv).
    destruct (eval_at v (trout v) Av ltac:(lia)) as (w & rw & Ew & Rw & Sw & Evw). rewrite Ew. cbn [bind].
    apply rootst_fields in Rw. destruct Rw as (W1 & W2 & _ & _ & W3 & _ & _ & _ & _ & _ & _ & W4 & W5).
    exists w, RootFound. split; [reflexivity|]. split; [eapply shell_trans; eassumption|].
    assert (In3 : forall e, In e (tr x) -> In e (tr w)) by (intros e Hi; apply (shell_in _ _ Sw), (shell_in _ _ Qv), Hi).
    assert (Hr : evald st (tr w) (thi x) (ghi x)).
    { destruct (sr_hi _ _ D2) as [(X & Y)|X].
      - rewrite X, Y, G5, G6. eapply evald_core; [reflexivity| |exact Ev3]. intros e Hi. apply In3, (shell_in _ _ (sr_shell _ _ D2)), Hi.
      - eapply evald_core; [|exact In3|exact X]. exact C3. }
    assert (Hl : (tlo x = tlo st /\ glo x = glo st) \/ evald st (tr w) (tlo x) (glo x)).
    { destruct (sr_lo _ _ D2) as [(X & Y)|X]; [left; split; congruence|]. right. eapply evald_core; [|exact In3|exact X]. exact C3. }
    rewrite W3, V3, W5, V6. split; [exact (evald_length _ _ _ _ Hr)|]. split.
    { intros i Li. rewrite D5, D6, G3. apply act_spec. exact Li. }
    destruct (sr_evals _ _ D2) as (N1 & N2). rewrite W4, V4. split; [lia|]. rewrite G4, G5, G1, T3 in *. split.
    { pose proof (Rabs_pos (thi x - tlo x)). lra. }
    exists (tlo x), (glo x). rewrite G3, G7 in *. constructor; rewrite ?W3, ?V3, ?W2, ?V2, ?W1, ?V5.
    + exact Hl.
    + exact Hr.
    + destruct (sr_pos _ _ D2) as (a & b & P1 & P2 & P3 & P4). exists a, b. rewrite G1, G5 in *. auto.
    + exact D8.
    + exact D9.
    + split; [exact D10|exact D11].
    + intros Hc. pose proof (gs_eval prob v w _ _ Av ltac:(lia) Ew) as G. rewrite V1 in G.
      destruct (core_interp prob v st (sh_core _ _ _ Qs) (thi x)) as (X1 & X2 & X3). rewrite X1, Hc, X2, X3 in G. tauto.
Qed.

End Search.
