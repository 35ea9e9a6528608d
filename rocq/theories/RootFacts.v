(** * RootFacts: the bracketing search of root_find over exact reals *)
Require Import List Arith Bool Lia Reals Lra.
Import ListNotations.
Require Import Verif.Base Verif.Scalar Verif.ScalarR Verif.Dense Verif.Norms Verif.Newton Verif.NewtonSpec
  Verif.IdaState Verif.IdaNls Verif.IdaCore Verif.IdaRoots Verif.IdaSolve Verif.BaseFacts Verif.NewtonFacts
  Verif.IdaFacts Verif.IdaLoops Verif.IdaStep Verif.IdaSpec Verif.IdaShell Verif.IdaReach Verif.IdaInterp.
Open Scope R_scope.

(** ** The next abscissa *)

Lemma fracsub_bounds lo hi tol : 0 < tol < Rabs (hi - lo) ->
  0 < fracsub lo hi tol < 1 /\ tol / 2 <= fracsub lo hi tol * Rabs (hi - lo) <= Rabs (hi - lo) - tol / 2.
Proof.
  intros (Ht & HD). unfold fracsub. cbn. set (D := Rabs (hi - lo)) in *.
  assert (HD0 : 0 < D) by lra.
  destruct (Rltb 5 (D / tol)) eqn:E.
  - apply Rltb_true in E. assert (5 * tol < D).
    { apply (Rmult_lt_compat_r tol) in E; [|exact Ht]. unfold Rdiv in E. rewrite Rmult_assoc, Rinv_l, Rmult_1_r in E; lra. }
    lra.
  - replace (/ 2 / (D / tol)) with (tol / (2 * D)) by (field; lra).
    assert (Hq : tol / (2 * D) * D = tol / 2) by (field; lra). rewrite Hq.
    split; [|lra]. split; [apply Rdiv_lt_0_compat; lra|].
    apply (Rmult_lt_reg_r D); [exact HD0|]. rewrite Hq. lra.
Qed.

(** The abscissa lies between the ends, at least half a tolerance from both. *)
Lemma next_tmid_bounds lo hi tol alph glm ghm : 0 < tol < Rabs (hi - lo) -> 0 < alph -> glm * ghm < 0 ->
  exists th, 0 < th < 1 /\ next_tmid lo hi tol alph glm ghm = lo + th * (hi - lo) /\
    tol / 2 <= th * Rabs (hi - lo) <= Rabs (hi - lo) - tol / 2.
Proof.
  intros Ht Ha Hg. destruct (fracsub_bounds lo hi tol Ht) as (F1 & F2).
  unfold next_tmid. cbn. set (D := Rabs (hi - lo)) in *. set (f := fracsub lo hi tol) in *.
  assert (HD : 0 < D) by lra.
  assert (Hd : forall x, 0 < x -> Rabs (x * (hi - lo)) = x * D).
  { intros x Hx. rewrite Rabs_mult, (Rabs_pos_eq x) by lra. reflexivity. }
  assert (Hq : exists q, 0 < q < 1 /\ (hi - lo) * ghm / (ghm - alph * glm) = q * (hi - lo)).
  { exists (ghm / (ghm - alph * glm)).
    assert (Hc : (0 < ghm /\ glm < 0) \/ (ghm < 0 /\ 0 < glm)).
    { destruct (Rtotal_order ghm 0) as [G|[G|G]]; [right|subst; lra|left].
      - split; [exact G|]. destruct (Rle_lt_dec glm 0) as [L|L]; [|exact L].
        exfalso. assert (0 <= glm * ghm) by (replace (glm * ghm) with ((-glm) * (-ghm)) by ring; apply Rmult_le_pos; lra). lra.
      - split; [exact G|]. destruct (Rle_lt_dec 0 glm) as [L|L]; [|exact L].
        exfalso. assert (0 <= glm * ghm) by (apply Rmult_le_pos; lra). lra. }
    assert (Hne : ghm - alph * glm <> 0 /\ 0 < ghm / (ghm - alph * glm) < 1).
    { destruct Hc as [(A & B)|(A & B)].
      - assert (0 < alph * - glm) by (apply Rmult_lt_0_compat; lra).
        assert (0 < ghm - alph * glm) by lra. split; [lra|]. split; [apply Rdiv_lt_0_compat; lra|].
        apply (Rmult_lt_reg_r (ghm - alph * glm)); [lra|]. unfold Rdiv. rewrite Rmult_assoc, Rinv_l; lra.
      - assert (0 < alph * glm) by (apply Rmult_lt_0_compat; lra).
        assert (0 < - (ghm - alph * glm)) by lra. split; [lra|].
        replace (ghm / (ghm - alph * glm)) with (- ghm / - (ghm - alph * glm)) by (field; lra).
        split; [apply Rdiv_lt_0_compat; lra|].
        apply (Rmult_lt_reg_r (- (ghm - alph * glm))); [lra|]. unfold Rdiv. rewrite Rmult_assoc, Rinv_l; lra. }
    destruct Hne as (N & Hb). split; [exact Hb|]. field. exact N. }
  destruct Hq as (q & Hq & ->).
  (* after the first adjustment: a fraction at least half a tolerance from lo *)
  set (m1 := if Rltb (Rabs (hi - q * (hi - lo) - lo)) (/ 2 * tol) then lo + f * (hi - lo) else hi - q * (hi - lo)).
  assert (H1 : exists th, 0 < th < 1 /\ m1 = lo + th * (hi - lo) /\ tol / 2 <= th * D).
  { unfold m1. destruct (Rltb _ _) eqn:E.
    - exists f. repeat split; lra.
    - apply Rltb_false in E. exists (1 - q). split; [lra|]. split; [ring|].
      replace (hi - q * (hi - lo) - lo) with ((1 - q) * (hi - lo)) in E by ring. rewrite Hd in E by lra. lra. }
  destruct H1 as (th & T1 & T2 & T3). rewrite T2.
  destruct (Rltb (Rabs (hi - (lo + th * (hi - lo)))) (/ 2 * tol)) eqn:E.
  - exists (1 - f). split; [lra|]. split; [ring|]. lra.
  - apply Rltb_false in E. exists th. split; [exact T1|]. split; [reflexivity|]. split; [exact T3|].
    replace (hi - (lo + th * (hi - lo))) with ((1 - th) * (hi - lo)) in E by ring. rewrite Hd in E by lra. lra.
Qed.

(** ** The scans *)

(** Component [i] is watched, its direction is not excluded, and it changes sign
    between the two ends; or vanishes at the right end. *)
Definition crosses (ga : list bool) (rd : list nat) (gl gh : list R) (i : nat) : Prop :=
  bget ga i = true /\ INR (nget rd i) * vget gl i <= 0 /\ vget gl i * vget gh i < 0.
Definition vanishes (ga : list bool) (rd : list nat) (gl gh : list R) (i : nat) : Prop :=
  bget ga i = true /\ INR (nget rd i) * vget gl i <= 0 /\ vget gh i = 0.

Lemma abs_zero x : Reqb (Rabs x) 0 = true <-> x = 0.
Proof.
  rewrite Reqb_true. split; intros Hx; [|subst; apply Rabs_R0].
  destruct (Req_dec x 0) as [E|E]; [exact E|]. exfalso. exact (Rabs_no_R0 x E Hx).
Qed.
Lemma abs_nonzero x : Reqb (Rabs x) 0 = false <-> x <> 0.
Proof. rewrite <- not_true_iff_false, abs_zero. tauto. Qed.

Lemma scan2_scan1 ga rd gl gh acc i : @scan2_body R _ ga rd gl gh acc i = scan1_body ga rd gl gh acc i.
Proof.
  destruct acc as (((z & s) & m) & im). unfold scan2_body, scan1_body, dir_ok. cbn.
  destruct (bget ga i); [|reflexivity].
  destruct (Reqb (Rabs (vget gh i)) 0) eqn:Ez; cbn; [|reflexivity].
  apply abs_zero in Ez. rewrite Ez. destruct (Rleb (INR (nget rd i) * vget gl i) 0) eqn:Ed; [reflexivity|].
  rewrite andb_false_r. reflexivity.
Qed.

Lemma scan_fold ga rd gl gh im0 : forall k,
  let '(z, s, m, im) := fold_left (@scan1_body R _ ga rd gl gh) (seq 0 k) (false, false, 0, im0) in
  0 <= m /\ (s = false -> m = 0) /\ (s = false -> im = im0) /\
  (z = true <-> exists i, (i < k)%nat /\ vanishes ga rd gl gh i) /\
  (s = true <-> exists i, (i < k)%nat /\ crosses ga rd gl gh i) /\
  (s = true -> (im < k)%nat /\ crosses ga rd gl gh im).
Proof.
  induction k as [|k IH].
  - cbn. repeat split; try lra; try reflexivity; try discriminate; try (intros (i & L & _); lia).
  - rewrite seq_S, fold_left_app. cbn [Nat.add fold_left].
    destruct (fold_left _ _ _) as (((z & s) & m) & im). destruct IH as (I0 & I1 & I2 & I3 & I4 & I5).
    assert (Hz : forall P : nat -> Prop, (exists i, (i < S k)%nat /\ P i) <-> (exists i, (i < k)%nat /\ P i) \/ P k).
    { intros P. split.
      - intros (i & L & Hi). destruct (Nat.eq_dec i k) as [->|Ne]; [auto|]. left. exists i. split; [lia|exact Hi].
      - intros [(i & L & Hi)|Hk]; [exists i|exists k]; split; auto. }
    assert (Hnz : ~ vanishes ga rd gl gh k -> (z = true <-> exists i, (i < S k)%nat /\ vanishes ga rd gl gh i)).
    { intros N. rewrite Hz, <- I3. tauto. }
    assert (Hns : ~ crosses ga rd gl gh k ->
        (s = true <-> exists i, (i < S k)%nat /\ crosses ga rd gl gh i) /\
        (s = true -> (im < S k)%nat /\ crosses ga rd gl gh im)).
    { intros N. rewrite Hz, <- I4. split; [tauto|]. intros Hs. destruct (I5 Hs) as (L & C). split; [lia|exact C]. }
    unfold scan1_body, dir_ok. cbn.
    destruct (bget ga k) eqn:Ea.
    2:{ assert (N1 : ~ vanishes ga rd gl gh k) by (intros (X & _); congruence).
        assert (N2 : ~ crosses ga rd gl gh k) by (intros (X & _); congruence).
        specialize (Hnz N1). destruct (Hns N2). tauto. }
    destruct (Reqb (Rabs (vget gh k)) 0) eqn:Ez.
    { apply abs_zero in Ez.
      assert (N2 : ~ crosses ga rd gl gh k) by (intros (_ & _ & X); rewrite Ez, Rmult_0_r in X; lra).
      destruct (Hns N2) as (N3 & N4).
      destruct (Rleb (INR (nget rd k) * vget gl k) 0) eqn:Ed.
      - apply Rleb_true in Ed. assert (V : vanishes ga rd gl gh k) by (repeat split; assumption).
        split; [exact I0|]. split; [exact I1|]. split; [exact I2|]. split; [|tauto].
        rewrite Hz. split; auto.
      - apply Rleb_false in Ed. assert (N1 : ~ vanishes ga rd gl gh k) by (intros (_ & X & _); lra).
        specialize (Hnz N1). tauto. }
    apply abs_nonzero in Ez.
    assert (N1 : ~ vanishes ga rd gl gh k) by (intros (_ & _ & X); contradiction).
    specialize (Hnz N1).
    destruct (Rltb (vget gl k * vget gh k) 0) eqn:Es; cbn.
    2:{ apply Rltb_false in Es. assert (N2 : ~ crosses ga rd gl gh k) by (intros (_ & _ & X); lra).
        destruct (Hns N2). tauto. }
    apply Rltb_true in Es.
    destruct (Rleb (INR (nget rd k) * vget gl k) 0) eqn:Ed.
    2:{ apply Rleb_false in Ed. assert (N2 : ~ crosses ga rd gl gh k) by (intros (_ & X & _); lra).
        destruct (Hns N2). tauto. }
    apply Rleb_true in Ed.
    assert (C : crosses ga rd gl gh k) by (repeat split; assumption).
    assert (Hf : 0 < Rabs (vget gh k / (vget gh k - vget gl k))).
    { apply Rabs_pos_lt. intros Hq. unfold Rdiv in Hq. apply Rmult_integral in Hq. destruct Hq as [Hq|Hq]; [contradiction|].
      assert (Hd : vget gh k - vget gl k <> 0).
      { intros E. assert (vget gh k = vget gl k) by lra. rewrite H in Es. pose proof (Rle_0_sqr (vget gl k)). unfold Rsqr in *. lra. }
      exact (Rinv_neq_0_compat _ Hd Hq). }
    destruct (Rltb m (Rabs (vget gh k / (vget gh k - vget gl k)))) eqn:Em.
    + split; [lra|]. split; [discriminate|]. split; [discriminate|]. split; [exact Hnz|]. split.
      * split; [|reflexivity]. intros _. exists k. split; [lia|exact C].
      * intros _. split; [lia|exact C].
    + apply Rltb_false in Em. destruct s.
      2:{ rewrite (I1 eq_refl) in Em. lra. }
      split; [exact I0|]. split; [exact I1|]. split; [exact I2|]. split; [exact Hnz|]. destruct (I5 eq_refl) as (L & C').
      split; [|intros _; split; [lia|exact C']]. split; [|reflexivity]. intros _. exists k. split; [lia|exact C].
Qed.

Section Search.
Context {LSt NSt : Type} `{LSolver R LSt} `{NLSolver R NSt}.
Variable prob : problem R.
Notation n := (model_size prob).
Notation nr := (num_roots prob).
Notation state := (ida R LSt NSt).
Notation tr st := (trace (lp (nlp st))).

Lemma scan1_spec ga rd gl gh z s m im : scan1 prob ga rd gl gh = (z, s, m, im) ->
  (z = true <-> exists i, (i < nr)%nat /\ vanishes ga rd gl gh i) /\
  (s = true <-> exists i, (i < nr)%nat /\ crosses ga rd gl gh i) /\
  (s = true -> (im < nr)%nat /\ crosses ga rd gl gh im).
Proof.
  intros E. unfold scan1 in E. cbn in E. pose proof (scan_fold ga rd gl gh 0 nr) as S. rewrite E in S. tauto.
Qed.

Lemma scan2_spec ga rd gl gh im0 z s m im : scan2 prob ga rd gl gh im0 = (z, s, m, im) ->
  (z = true <-> exists i, (i < nr)%nat /\ vanishes ga rd gl gh i) /\
  (s = true <-> exists i, (i < nr)%nat /\ crosses ga rd gl gh i) /\
  (s = true -> (im < nr)%nat /\ crosses ga rd gl gh im) /\ (s = false -> im = im0).
Proof.
  intros E. unfold scan2 in E. cbn in E. pose proof (scan_fold ga rd gl gh im0 nr) as S.
  assert (F : forall l acc, fold_left (@scan2_body R _ ga rd gl gh) l acc = fold_left (scan1_body ga rd gl gh) l acc).
  { induction l as [|a l IH]; intros acc; cbn [fold_left]; [reflexivity|]. rewrite scan2_scan1. apply IH. }
  rewrite F in E. rewrite E in S. tauto.
Qed.

(** ** The loop *)

(** [g] was computed at time [t] by one of the calls [evs], at the interpolated solution
    when the time is accepted. *)
Definition evald (st : state) (evs : list (event R)) (t : R) (g : list R) : Prop :=
  exists y yp, g = vtab nr (p_root prob t y yp) /\ In (CRoot t y yp) evs /\
    (time_check st t = None -> y = interp_y prob st t /\ yp = interp_yp prob st t).

Lemma evald_core (a b : state) e1 e2 t g : core a = core b -> (forall e, In e e1 -> In e e2) ->
  evald a e1 t g -> evald b e2 t g.
Proof.
  intros C Hi (y & yp & E & Ht & V). destruct (core_interp prob a b C t) as (C1 & C2 & C3).
  exists y, yp. split; [exact E|]. split; [exact (Hi _ Ht)|]. rewrite <- C1, <- C2, <- C3. exact V.
Qed.

Lemma shell_in (a b : state) : shell prob a b -> forall e, In e (tr a) -> In e (tr b).
Proof. intros S e Hi. destruct (sh_trace _ _ _ S) as (evs & -> & _). apply in_or_app. auto. Qed.

Lemma evald_length (st : state) evs t g : evald st evs t g -> length g = nr.
Proof. intros (y & yp & -> & _). apply vtab_length. Qed.

Record srch (st st' : state) : Prop := mksrch {
  sr_shell : shell prob st st';
  sr_same : gactive st' = gactive st /\ ttol st' = ttol st;
  sr_lo : (tlo st' = tlo st /\ glo st' = glo st) \/ evald st (tr st') (tlo st') (glo st');
  sr_hi : (thi st' = thi st /\ ghi st' = ghi st) \/ evald st (tr st') (thi st') (ghi st');
  sr_pos : exists a b, 0 <= a < b /\ b <= 1 /\ tlo st' = tlo st + a * (thi st - tlo st) /\
    thi st' = tlo st + b * (thi st - tlo st);
  sr_evals : (nge st <= nge st')%nat /\
    Rabs (thi st' - tlo st') + INR (nge st' - nge st) * (ttol st / 2) <= Rabs (thi st - tlo st) }.

Lemma srch_refl st : srch st st.
Proof.
  constructor; auto.
  - apply shell_refl.
  - exists 0, 1. repeat split; try lra.
  - split; [lia|]. rewrite Nat.sub_diag. cbn. lra.
Qed.

Lemma srch_trans a b c : srch a b -> srch b c -> srch a c.
Proof.
  intros [A1 (A2 & A2') A3 A4 (x & y & A5 & A6 & A7 & A8) (A9 & A10)] [B1 (B2 & B2') B3 B4 (x' & y' & B5 & B6 & B7 & B8) (B9 & B10)].
  assert (C : core b = core a) by apply (sh_core _ _ _ A1).
  constructor.
  - eapply shell_trans; eassumption.
  - split; congruence.
  - destruct B3 as [(-> & ->)|B3].
    + destruct A3 as [A3|A3]; [left; exact A3|]. right. eapply evald_core; [reflexivity|exact (shell_in _ _ B1)|exact A3].
    + right. exact (evald_core _ _ _ _ _ _ C (fun e h => h) B3).
  - destruct B4 as [(-> & ->)|B4].
    + destruct A4 as [A4|A4]; [left; exact A4|]. right. eapply evald_core; [reflexivity|exact (shell_in _ _ B1)|exact A4].
    + right. exact (evald_core _ _ _ _ _ _ C (fun e h => h) B4).
  - exists (x + x' * (y - x)), (x + y' * (y - x)).
    assert (0 <= x' * (y - x)) by (apply Rmult_le_pos; lra).
    assert (0 < (y' - x') * (y - x)) by (apply Rmult_lt_0_compat; lra).
    assert (0 <= (1 - y') * (y - x)) by (apply Rmult_le_pos; lra).
    repeat split; try lra.
    + rewrite B7, A7, A8. ring.
    + rewrite B8, A7, A8. ring.
  - split; [lia|]. replace (nge c - nge a)%nat with ((nge c - nge b) + (nge b - nge a))%nat by lia.
    rewrite plus_INR, A2' in *. lra.
Qed.

Notation ga st := (gactive st).
Notation rd st := (rootdir st).

Lemma shell_rootdir (a b : state) : shell prob a b -> rootdir b = rootdir a.
Proof.
  intros S. pose proof (core_fields _ _ (sh_core _ _ _ S)) as (C & _). unfold cfg in C. injection C. intros. assumption.
Qed.

Lemma shell_arr (a b : state) : shell prob a b -> arrays a -> arrays b /\ kused b = kused a.
Proof.
  intros S A. pose proof (core_fields _ _ (sh_core _ _ _ S)) as C. pose proof (sh_cvals _ _ _ S). pose proof (sh_dvals _ _ _ S).
  destruct C as (_ & C1 & C2 & C3 & C4 & C5 & C6 & _ & C7 & _). unfold arrays in *.
  rewrite C1, C2, C3, C4, C5, C6, C7. repeat split; try tauto; destruct A as (_ & _ & _ & _ & _ & _ & A7 & A8); congruence.
Qed.

(** One evaluation of the root functions at the solution interpolated at [t]. *)
Lemma eval_at (st : state) t : arrays st -> (kused st <= 5)%nat -> exists s r,
  get_solution prob st t = Ret (s, r) /\ rootst s = rootst st /\ shell prob st s /\
  evald st [CRoot t (yy (nlp s)) (yp (nlp s))] t (vtab nr (p_root prob t (yy (nlp s)) (yp (nlp s)))).
Proof.
  intros A K. destruct (gs_ret prob st t A K) as (s & E). exists s. eexists. split; [exact E|].
  pose proof (gs_eval prob st s t _ A K E) as G. pose proof (get_solution_shell prob st t s _ E) as S.
  pose proof (get_solution_frame _ _ _ _ _ E) as F. split; [|split; [exact S|]].
  - tauto.
  - exists (yy (nlp s)), (yp (nlp s)). split; [reflexivity|]. split; [left; reflexivity|]. intros Hc. rewrite Hc in G. tauto.
Qed.

Record watch (st : state) (im : nat) : Prop := mkwatch {
  w_im : (im < nr)%nat;
  w_cross : crosses (ga st) (rd st) (glo st) (ghi st) im;
  w_hi : length (ghi st) = nr;
  w_lo : length (glo st) = nr }.

(** What the search ends with. *)
Definition located (st : state) : Prop :=
  (Rabs (thi st - tlo st) <= ttol st /\ exists im, watch st im) \/
  ((exists i, (i < nr)%nat /\ vanishes (ga st) (rd st) (glo st) (ghi st) i) /\
   forall i, (i < nr)%nat -> ~ crosses (ga st) (rd st) (glo st) (ghi st) i).

Lemma aget_len (l : list R) i : (i < length l)%nat -> aget l i = Ret (vget l i).
Proof.
  intros L. unfold aget, vget. destruct (nth_error l i) eqn:E.
  - f_equal. symmetry. apply nth_error_nth. exact E.
  - apply nth_error_None in E. lia.
Qed.

Lemma next_alph_pos alph sp side : 0 < alph -> 0 < next_alph alph sp side.
Proof.
  intros Ha. unfold next_alph. destruct sp as [k|]; [|cbn; lra]. destruct (k =? side); [|cbn; lra].
  destruct (side =? 2); cbn; lra.
Qed.

Lemma prod_neg a b : a * b < 0 <-> (a < 0 /\ 0 < b) \/ (0 < a /\ b < 0).
Proof.
  split.
  - intros L. destruct (Rtotal_order a 0) as [A|[A|A]].
    + left. split; [exact A|]. destruct (Rle_lt_dec b 0) as [B|B]; [|exact B]. exfalso.
      assert (0 <= (-a) * (-b)) by (apply Rmult_le_pos; lra). lra.
    + subst. lra.
    + right. split; [exact A|]. destruct (Rle_lt_dec 0 b) as [B|B]; [|exact B]. exfalso.
      assert (0 <= a * b) by (apply Rmult_le_pos; lra). lra.
  - intros [(A & B)|(A & B)].
    + assert (0 < (-a) * b) by (apply Rmult_lt_0_compat; lra). lra.
    + assert (0 < a * (-b)) by (apply Rmult_lt_0_compat; lra). lra.
Qed.

(** The searched component keeps its sign change when the left end moves. *)
Lemma crosses_left gact rdir gl gm gh im :
  crosses gact rdir gl gh im -> ~ crosses gact rdir gl gm im -> ~ vanishes gact rdir gl gm im ->
  crosses gact rdir gm gh im.
Proof.
  intros (C1 & C2 & C3) N1 N2. unfold crosses, vanishes in *. split; [exact C1|].
  assert (Hnz : vget gm im <> 0) by tauto. assert (Hns : ~ vget gl im * vget gm im < 0) by tauto.
  assert (Hs : (0 < vget gl im /\ 0 < vget gm im) \/ (vget gl im < 0 /\ vget gm im < 0)).
  { rewrite prod_neg in Hns. apply prod_neg in C3. destruct C3 as [(A & B)|(A & B)].
    - right. split; [exact A|]. destruct (Rtotal_order (vget gm im) 0) as [X|[X|X]]; [exact X|contradiction|].
      exfalso. apply Hns. left. auto.
    - left. split; [exact A|]. destruct (Rtotal_order (vget gm im) 0) as [X|[X|X]]; [|contradiction|exact X].
      exfalso. apply Hns. right. auto. }
  pose proof (pos_INR (nget rdir im)) as Hp. apply prod_neg in C3. split.
  - destruct Hs as [(A & B)|(A & B)].
    + assert (Hi0 : INR (nget rdir im) = 0).
      { destruct (Rle_lt_or_eq_dec _ _ Hp) as [L|L]; [|auto]. exfalso.
        assert (0 < INR (nget rdir im) * vget gl im) by (apply Rmult_lt_0_compat; lra). lra. }
      rewrite Hi0. lra.
    + assert (0 <= INR (nget rdir im) * - vget gm im) by (apply Rmult_le_pos; lra). lra.
  - apply prod_neg. destruct Hs as [(A & B)|(A & B)]; destruct C3 as [(X & Y)|(X & Y)]; try lra; tauto.
Qed.

(** The interval after one pass. *)
Lemma narrow lo hi th tol : 0 < tol -> 0 < th < 1 -> tol / 2 <= th * Rabs (hi - lo) <= Rabs (hi - lo) - tol / 2 ->
  Rabs (lo + th * (hi - lo) - lo) + 1 * (tol / 2) <= Rabs (hi - lo) /\
  Rabs (hi - (lo + th * (hi - lo))) + 1 * (tol / 2) <= Rabs (hi - lo).
Proof.
  intros Ht Hth Hb. replace (lo + th * (hi - lo) - lo) with (th * (hi - lo)) by ring.
  replace (hi - (lo + th * (hi - lo))) with ((1 - th) * (hi - lo)) by ring.
  rewrite !Rabs_mult, (Rabs_pos_eq th), (Rabs_pos_eq (1 - th)) by lra. lra.
Qed.

(** One pass: the bracket narrows, or the search ends. *)
Lemma root_loop_spec fuel : forall (st : state) alph sp side im,
  arrays st -> (kused st <= 5)%nat -> 0 < alph -> 0 < ttol st -> watch st im ->
  (root_loop prob fuel st alph sp side im = Diverge /\ INR fuel * (ttol st / 2) < Rabs (thi st - tlo st) + ttol st / 2) \/
  exists st', root_loop prob fuel st alph sp side im = Ret st' /\ srch st st' /\ located st'.
Proof.
  induction fuel as [|fuel IH]; intros st alph sp side im A K Ha Ht W.
  { left. split; [reflexivity|]. cbn. pose proof (Rabs_pos (thi st - tlo st)). lra. }
  cbn [root_loop]. change (sabs (thi st - tlo st)%sc <=? ttol st)%sc with (Rleb (Rabs (thi st - tlo st)) (ttol st)).
  destruct (Rleb (Rabs (thi st - tlo st)) (ttol st)) eqn:Ec.
  { apply Rleb_true in Ec. right. exists st. split; [reflexivity|]. split; [apply srch_refl|]. left. eauto. }
  apply Rleb_false in Ec.
  set (al := next_alph alph sp side). assert (Hal : 0 < al) by (apply next_alph_pos; exact Ha).
  destruct W as [W1 W2 W3 W4]. rewrite (aget_len _ im) by lia. cbn [bind]. rewrite (aget_len _ im) by lia. cbn [bind].
  destruct (next_tmid_bounds (tlo st) (thi st) (ttol st) al (vget (glo st) im) (vget (ghi st) im) (conj Ht Ec) Hal)
    as (th & T1 & T2 & T3); [exact (proj2 (proj2 W2))|].
  destruct (narrow (tlo st) (thi st) th (ttol st) Ht T1 T3) as (Nlo & Nhi). rewrite <- T2 in Nlo, Nhi.
  set (tm := next_tmid (tlo st) (thi st) (ttol st) al (vget (glo st) im) (vget (ghi st) im)) in *.
  destruct (eval_at st tm A K) as (s & r & E & Rs & Sh & Ev). rewrite E. cbn [bind].
  destruct (call_root prob s tm (yy (nlp s)) (yp (nlp s))) as (s1, g) eqn:Er.
  pose proof (root_grout_shell prob _ _ _ _ _ _ Er) as Sg.
  assert (Eg : g = vtab nr (p_root prob tm (yy (nlp s)) (yp (nlp s)))) by (unfold call_root in Er; congruence).
  rewrite <- Eg in Ev. pose proof (evald_length _ _ _ _ Ev) as Lg.
  pose proof (shell_call prob _ _ _ _ _ _ Er) as (_ & _ & _ & _ & Rc & _ & _ & Tc & _).
  set (s2 := set_nge (nge s1 + 1) (set_grout g s1)) in *.
  assert (Ev2 : evald st (tr s2) tm g).
  { eapply evald_core; [reflexivity| |exact Ev]. intros e [<-|[]]. change (tr s2) with (tr s1). rewrite Tc. left. reflexivity. }
  clear Ev. rename Ev2 into Ev.
  assert (S2 : shell prob st s2) by (eapply shell_trans; eassumption).
  assert (F : rootst s1 = rootst st) by congruence. apply rootst_fields in F.
  assert (F1 : glo s2 = glo st /\ ghi s2 = ghi st /\ tlo s2 = tlo st /\ thi s2 = thi st /\ ttol s2 = ttol st /\
     gactive s2 = gactive st /\ nge s2 = (nge st + 1)%nat /\ grout s2 = g).
  { unfold s2. cbn. repeat split; try (apply F). f_equal. apply F. }
  clearbody s2. clear F Er Sg Rc Tc E Sh Rs s1 s r Eg.
  destruct F1 as (F1 & F2 & F3 & F4 & F5 & F6 & F7 & F8).
  pose proof (shell_rootdir _ _ S2) as F9. rewrite F1, F6, F8, F9.
  destruct (scan2 prob (gactive st) (rootdir st) (glo st) g im) as (((z & sg) & mf) & im') eqn:Es.
  apply scan2_spec in Es. destruct Es as (Z1 & Z2 & Z3 & Z4).
  assert (Hinr : INR (nge st + 1 - nge st) = 1) by (replace (nge st + 1 - nge st)%nat with 1%nat by lia; reflexivity).
  destruct sg.
  - (* the right end moves *)
    set (s3 := set_ghi g (set_thi tm s2)).
    assert (Q3 : shell prob st s3).
    { eapply shell_trans; [exact S2|]. apply shell_quiet; [reflexivity|left; reflexivity|reflexivity|reflexivity|auto|reflexivity|reflexivity|reflexivity]. }
    destruct (Z3 eq_refl) as (L' & C').
    assert (Ev3 : evald st (tr s3) tm g) by exact Ev.
    assert (G3 : glo s3 = glo st /\ ghi s3 = g /\ tlo s3 = tlo st /\ thi s3 = tm /\ ttol s3 = ttol st /\
       gactive s3 = gactive st /\ nge s3 = (nge st + 1)%nat) by (unfold s3; cbn; tauto).
    clearbody s3. destruct G3 as (G1 & G2 & G3 & G4 & G5 & G6 & G7). pose proof (shell_rootdir _ _ Q3) as G8.
    assert (W' : watch s3 im') by (constructor; rewrite ?G6, ?G8, ?G1, ?G2; auto).
    assert (R3 : srch st s3).
    { constructor; rewrite ?G1, ?G2, ?G3, ?G4, ?G5, ?G6, ?G7, ?Hinr; auto.
      - exists 0, th. repeat split; try lra.
      - split; [lia|exact Nlo]. }
    change (sabs (thi s3 - tlo s3)%sc <=? ttol s3)%sc with (Rleb (Rabs (thi s3 - tlo s3)) (ttol s3)).
    destruct (Rleb (Rabs (thi s3 - tlo s3)) (ttol s3)) eqn:Ec3.
    { apply Rleb_true in Ec3. right. exists s3. split; [reflexivity|]. split; [exact R3|]. left. eauto. }
    destruct (shell_arr _ _ Q3 A) as (A3 & K3).
    destruct (IH s3 al (Some side) 1%nat im' A3 ltac:(lia) Hal ltac:(lra) W') as [(I1 & I2)|(st' & I1 & I2 & I3)].
    + left. split; [exact I1|]. rewrite S_INR, G5, G4, G3 in *. lra.
    + right. exists st'. split; [exact I1|]. split; [|exact I3]. eapply srch_trans; eassumption.
  - assert (N1 : forall i, (i < nr)%nat -> ~ crosses (ga st) (rd st) (glo st) g i).
    { intros i Li C. assert (false = true) by (apply Z2; eauto). discriminate. }
    specialize (Z4 eq_refl). subst im'. destruct z.
    + (* an exact zero *)
      set (s3 := set_ghi g (set_thi tm s2)).
      assert (Q3 : shell prob st s3).
      { eapply shell_trans; [exact S2|]. apply shell_quiet; [reflexivity|left; reflexivity|reflexivity|reflexivity|auto|reflexivity|reflexivity|reflexivity]. }
      assert (Ev3 : evald st (tr s3) tm g) by exact Ev.
    assert (G3 : glo s3 = glo st /\ ghi s3 = g /\ tlo s3 = tlo st /\ thi s3 = tm /\ ttol s3 = ttol st /\
         gactive s3 = gactive st /\ nge s3 = (nge st + 1)%nat) by (unfold s3; cbn; tauto).
      clearbody s3. destruct G3 as (G1 & G2 & G3 & G4 & G5 & G6 & G7). pose proof (shell_rootdir _ _ Q3) as G8.
      right. exists s3. split; [reflexivity|]. split.
      { constructor; rewrite ?G1, ?G2, ?G3, ?G4, ?G5, ?G6, ?G7, ?Hinr; auto.
        - exists 0, th. repeat split; try lra.
        - split; [lia|exact Nlo]. }
      right. rewrite G6, G8, G1, G2. split; [apply Z1; reflexivity|exact N1].
    + assert (N2 : ~ vanishes (ga st) (rd st) (glo st) g im).
      { intros V. assert (false = true) by (apply Z1; eauto). discriminate. }
      set (s3 := set_glo g (set_tlo tm s2)).
      assert (Q3 : shell prob st s3).
      { eapply shell_trans; [exact S2|]. apply shell_quiet; [reflexivity|left; reflexivity|reflexivity|reflexivity|intros _; exact Lg|reflexivity|reflexivity|reflexivity]. }
      assert (Ev3 : evald st (tr s3) tm g) by exact Ev.
      assert (G3 : glo s3 = g /\ ghi s3 = ghi st /\ tlo s3 = tm /\ thi s3 = thi st /\ ttol s3 = ttol st /\
         gactive s3 = gactive st /\ nge s3 = (nge st + 1)%nat) by (unfold s3; cbn; tauto).
      clearbody s3. destruct G3 as (G1 & G2 & G3 & G4 & G5 & G6 & G7). pose proof (shell_rootdir _ _ Q3) as G8.
      assert (W' : watch s3 im).
      { constructor; rewrite ?G6, ?G8, ?G1, ?G2; auto. eapply crosses_left; [exact W2|apply N1; exact W1|exact N2]. }
      assert (R3 : srch st s3).
      { constructor; rewrite ?G1, ?G2, ?G3, ?G4, ?G5, ?G6, ?G7, ?Hinr; auto.
        - exists th, 1. repeat split; try lra.
        - split; [lia|exact Nhi]. }
      change (sabs (thi s3 - tlo s3)%sc <=? ttol s3)%sc with (Rleb (Rabs (thi s3 - tlo s3)) (ttol s3)).
      destruct (Rleb (Rabs (thi s3 - tlo s3)) (ttol s3)) eqn:Ec3.
      { apply Rleb_true in Ec3. right. exists s3. split; [reflexivity|]. split; [exact R3|]. left. eauto. }
      destruct (shell_arr _ _ Q3 A) as (A3 & K3).
      destruct (IH s3 al (Some side) 2%nat im A3 ltac:(lia) Hal ltac:(lra) W') as [(I1 & I2)|(st' & I1 & I2 & I3)].
      * left. split; [exact I1|]. rewrite S_INR, G5, G4, G3 in *. lra.
      * right. exists st'. split; [exact I1|]. split; [|exact I3]. eapply srch_trans; eassumption.
Qed.

(** ** root_find and r_check3 *)

Definition hit (gact : list bool) (rdir : list nat) (gl gh : list R) (i : nat) : Prop :=
  crosses gact rdir gl gh i \/ vanishes gact rdir gl gh i.

(** The right end of the searched interval. *)
Definition right_end (st : state) : R :=
  match taskc st with
  | OneStep => tn (nlp st)
  | Normal => if (szero <=? (toutc st - tn (nlp st)) * hh st)%sc then tn (nlp st) else toutc st
  end.

Record found (st : state) (tl : R) (gl : list R) (st' : state) : Prop := mkfound {
  fo_left : (tl = tlo st /\ gl = glo st) \/ evald st (tr st') tl gl;
  fo_right : evald st (tr st') (tlo st') (glo st');
  fo_pos : exists a b, 0 <= a < b /\ b <= 1 /\ tl = tlo st + a * (right_end st - tlo st) /\
    tlo st' = tlo st + b * (right_end st - tlo st);
  fo_close : Rabs (tlo st' - tl) <= root_ttol st \/
    forall i, (i < nr)%nat -> ~ crosses (ga st) (rd st) gl (glo st') i;
  fo_some : exists i, (i < nr)%nat /\ hit (ga st) (rd st) gl (glo st') i;
  fo_flags : length (iroots st') = nr /\ forall i, (i < nr)%nat ->
    (hit (ga st) (rd st) gl (glo st') i /\ vget (iroots st') i = Rsignum (vget gl i)) \/
    (~ hit (ga st) (rd st) gl (glo st') i /\ vget (iroots st') i = 0);
  fo_out : time_check st (tlo st') = None ->
    yy (nlp st') = interp_y prob st (tlo st') /\ yp (nlp st') = interp_yp prob st (tlo st') }.

Definition quiet_interval (st st' : state) : Prop :=
  tlo st' = right_end st /\ evald st (tr st') (right_end st) (glo st') /\ nge st' = (nge st + 1)%nat /\
  forall i, (i < nr)%nat -> ~ hit (ga st) (rd st) (glo st) (glo st') i.

Lemma hit_b1 (gact : list bool) rdir gl gh : (forall i, (i < nr)%nat -> ~ crosses gact rdir gl gh i) -> forall i, (i < nr)%nat ->
  (bget gact i && (Reqb (Rabs (vget gh i)) 0 && Rleb (INR (nget rdir i) * vget gl i) 0) = true <-> hit gact rdir gl gh i).
Proof.
  intros N i Li. rewrite !andb_true_iff, abs_zero, Rleb_true. unfold hit, vanishes. specialize (N i Li). tauto.
Qed.

Lemma hit_b2 (gact : list bool) rdir gl gh i :
  bget gact i && (Rleb (INR (nget rdir i) * vget gl i) 0 && (Reqb (Rabs (vget gh i)) 0 || Rltb (vget gl i * vget gh i) 0)) = true
  <-> hit gact rdir gl gh i.
Proof.
  rewrite !andb_true_iff, orb_true_iff, abs_zero, Rleb_true, Rltb_true. unfold hit, vanishes, crosses. tauto.
Qed.

Lemma flags_spec (gact : list bool) rdir gl gh (b : nat -> bool) :
  (forall i, (i < nr)%nat -> (b i = true <-> hit gact rdir gl gh i)) ->
  let ir := vtab nr (fun i => if b i then Rsignum (vget gl i) else 0) in
  length ir = nr /\ forall i, (i < nr)%nat ->
    (hit gact rdir gl gh i /\ vget ir i = Rsignum (vget gl i)) \/ (~ hit gact rdir gl gh i /\ vget ir i = 0).
Proof.
  intros Hb. cbv zeta. split; [apply vtab_length|]. intros i Li. 
  assert (Ev : vget (vtab nr (fun i => if b i then Rsignum (vget gl i) else 0)) i = if b i then Rsignum (vget gl i) else 0).
  { unfold vget at 1. rewrite nth_vtab by exact Li. reflexivity. }
  rewrite Ev.
  destruct (b i) eqn:E; [left|right]; (split; [|reflexivity]).
  - apply Hb; assumption.
  - intros X. apply Hb in X; [|exact Li]. congruence.
Qed.

Lemma act_spec (gact : list bool) (g : list R) i : (i < nr)%nat ->
  bget (vtab nr (fun i => if negb (bget gact i) && sneqb (vget g i) szero then true else bget gact i)) i = true <->
  bget gact i = true \/ vget g i <> 0.
Proof.
  intros Li. unfold bget at 1. rewrite nth_vtab by exact Li. unfold sneqb. cbn.
  destruct (bget gact i); cbn; [tauto|]. destruct (Reqb (vget g i) 0) eqn:E; cbn.
  - apply Reqb_true in E. split; [discriminate|]. intros [X|X]; [discriminate|contradiction].
  - apply Reqb_false in E. tauto.
Qed.

Lemma root_find_spec fuel (st : state) :
  arrays st -> (kused st <= 5)%nat -> 0 < ttol st -> length (glo st) = nr -> length (ghi st) = nr ->
  (root_find prob fuel st = Diverge /\ INR fuel * (ttol st / 2) < Rabs (thi st - tlo st) + ttol st / 2) \/
  (exists st', root_find prob fuel st = Ret (st', RootContinue) /\ st' = set_grout (ghi st) (set_trout (thi st) st) /\
     forall i, (i < nr)%nat -> ~ hit (ga st) (rd st) (glo st) (ghi st) i) \/
  (exists s st', root_find prob fuel st = Ret (st', RootFound) /\ srch st s /\ shell prob s st' /\
     trout st' = thi s /\ grout st' = ghi s /\ gactive st' = gactive st /\ nge st' = nge s /\
     (Rabs (thi s - tlo s) <= ttol st \/ forall i, (i < nr)%nat -> ~ crosses (ga st) (rd st) (glo s) (ghi s) i) /\
     (exists i, (i < nr)%nat /\ hit (ga st) (rd st) (glo s) (ghi s) i) /\
     length (iroots st') = nr /\ forall i, (i < nr)%nat ->
       (hit (ga st) (rd st) (glo s) (ghi s) i /\ vget (iroots st') i = Rsignum (vget (glo s) i)) \/
       (~ hit (ga st) (rd st) (glo s) (ghi s) i /\ vget (iroots st') i = 0)).
Proof.
  intros A K Ht Ll Lh. unfold root_find.
  destruct (scan1 prob (gactive st) (rootdir st) (glo st) (ghi st)) as (((z & sg) & mf) & im) eqn:Es.
  apply scan1_spec in Es. destruct Es as (Z1 & Z2 & Z3). destruct sg; cbn [negb].
  - destruct (Z3 eq_refl) as (L & C).
    assert (W : watch st im) by (constructor; assumption).
    destruct (root_loop_spec fuel st (@sone R ScalarR) None 0%nat im A K Rlt_0_1 Ht W) as [(D1 & D2)|(s & D1 & D2 & D3)].
    + left. rewrite D1. split; [reflexivity|exact D2].
    + right. right. rewrite D1. cbn [bind]. exists s. eexists. split; [reflexivity|]. split; [exact D2|].
      pose proof (sr_shell _ _ D2) as Sh. destruct (sr_same _ _ D2) as (S1 & S2). pose proof (shell_rootdir _ _ Sh) as S3.
      split; [apply shell_quiet; [reflexivity|left; reflexivity|reflexivity|reflexivity|auto|reflexivity|reflexivity|reflexivity]|].
      split; [reflexivity|]. split; [reflexivity|]. split; [exact S1|]. split; [reflexivity|].
      unfold located in D3. rewrite S1, S2, S3 in D3.
      split; [destruct D3 as [(D3 & _)|(_ & D3)]; auto|]. split.
      { destruct D3 as [(_ & im' & [V1 V2 _ _])|((i & Li & V) & _)].
        - rewrite S1, S3 in V2. exists im'. split; [exact V1|left; exact V2].
        - exists i. split; [exact Li|right; exact V]. }
      rewrite <- S1, <- S3.
      apply (flags_spec (gactive s) (rootdir s) (glo s) (ghi s)
        (fun i => bget (gactive s) i && (Rleb (INR (nget (rootdir s) i) * vget (glo s) i) 0 && (Reqb (Rabs (vget (ghi s) i)) 0 || Rltb (vget (glo s) i * vget (ghi s) i) 0)))).
      intros i _. apply hit_b2.
  - assert (N : forall i, (i < nr)%nat -> ~ crosses (ga st) (rd st) (glo st) (ghi st) i).
    { intros i Li C. assert (false = true) by (apply Z2; eauto). discriminate. }
    right. destruct z; cbn [negb].
    + right. exists st. eexists. split; [reflexivity|]. split; [apply srch_refl|].
      split; [apply shell_quiet; [reflexivity|left; reflexivity|reflexivity|reflexivity|auto|reflexivity|reflexivity|reflexivity]|].
      split; [reflexivity|]. split; [reflexivity|]. split; [reflexivity|]. split; [reflexivity|].
      split; [right; exact N|]. split.
      { destruct (proj1 Z1 eq_refl) as (i & Li & V). exists i. split; [exact Li|right; exact V]. }
      apply (flags_spec (gactive st) (rootdir st) (glo st) (ghi st)
        (fun i => bget (gactive st) i && (Reqb (Rabs (vget (ghi st) i)) 0 && Rleb (INR (nget (rootdir st) i) * vget (glo st) i) 0))).
      apply hit_b1. exact N.
    + left. eexists. split; [reflexivity|]. split; [reflexivity|].
      intros i Li [C|V]; [exact (N i Li C)|]. assert (false = true) by (apply Z1; eauto). discriminate.
Qed.

Lemma r_check3_spec fuel (st : state) :
  arrays st -> (kused st <= 5)%nat -> 0 < root_ttol st -> length (glo st) = nr ->
  (r_check3 prob fuel st = Diverge /\
     INR fuel * (root_ttol st / 2) < Rabs (right_end st - tlo st) + root_ttol st / 2) \/
  (exists st' r, r_check3 prob fuel st = Ret (st', r) /\ shell prob st st' /\ length (glo st') = nr /\
     (forall i, (i < nr)%nat -> bget (gactive st') i = true <-> bget (ga st) i = true \/ vget (glo st') i <> 0) /\
     (nge st + 1 <= nge st')%nat /\ INR (nge st' - (nge st + 1)) * (root_ttol st / 2) <= Rabs (right_end st - tlo st) /\
     match r with
     | RootContinue => quiet_interval st st'
     | RootFound => exists tl gl, found st tl gl st'
     end).
Proof.
  intros A K Ht Ll. unfold r_check3. cbv zeta. fold (right_end st).
  set (s0 := set_thi (right_end st) st).
  assert (Q0 : shell prob st s0) by (apply shell_quiet; [reflexivity|left; reflexivity|reflexivity|reflexivity|auto|reflexivity|reflexivity|reflexivity]).
  assert (F0 : tlo s0 = tlo st /\ glo s0 = glo st /\ gactive s0 = gactive st /\ nge s0 = nge st /\ thi s0 = right_end st) by (unfold s0; cbn; tauto).
  assert (T0 : root_ttol s0 = root_ttol st) by reflexivity.
  destruct (shell_arr _ _ Q0 A) as (A0 & K0). clearbody s0.
  destruct F0 as (F1 & F2 & F3 & F4 & F5).
  destruct (eval_at s0 (thi s0) A0 ltac:(lia)) as (s & r & E & Rs & Sh & Ev). rewrite E. cbn [bind].
  rewrite !F5 in *.
  pose proof (rootst_fields _ _ Rs) as Rf. destruct Rf as (_ & Rf1 & Rf2 & _ & Rf3 & _ & _ & _ & _ & _ & _ & Rf4 & Rf5).
  replace (thi s) with (right_end st) by congruence.
  destruct (call_root prob s (right_end st) (yy (nlp s)) (yp (nlp s))) as (s1, g) eqn:Er.
  assert (Eg : g = vtab nr (p_root prob (right_end st) (yy (nlp s)) (yp (nlp s)))) by (unfold call_root in Er; congruence).
  rewrite <- Eg in Ev.
  pose proof (evald_length _ _ _ _ Ev) as Lg.
  pose proof (root_ghi_shell prob _ _ _ _ _ _ Er) as Sg.
  pose proof (shell_call prob _ _ _ _ _ _ Er) as (Cc & _ & _ & _ & Rc & _ & _ & Tc & _).
  apply rootst_fields in Rc. destruct Rc as (_ & Rc1 & Rc2 & _ & Rc3 & _ & _ & _ & _ & _ & _ & Rc4 & Rc5).
  set (s2 := set_nge (nge s1 + 1) (set_ghi g s1)) in *.
  set (s3 := set_ttol (root_ttol s2) s2).
  assert (Q3 : shell prob st s3).
  { eapply shell_trans; [exact Q0|]. eapply shell_trans; [exact Sh|]. eapply shell_trans; [exact Sg|].
    apply shell_quiet; [reflexivity|left; reflexivity|reflexivity|reflexivity|auto|reflexivity|reflexivity|reflexivity]. }
  assert (T3 : ttol s3 = root_ttol st).
  { unfold s3. cbn [ttol set_ttol]. rewrite <- T0. unfold root_ttol.
    pose proof (core_fields _ _ (sh_core _ _ _ Sg)) as C1. pose proof (core_fields _ _ (sh_core _ _ _ Sh)) as C2.
    destruct C1 as (_ & _ & _ & _ & _ & _ & _ & _ & _ & _ & _ & _ & C1 & _ & _ & _ & _ & _ & C1' & _).
    destruct C2 as (_ & _ & _ & _ & _ & _ & _ & _ & _ & _ & _ & _ & C2 & _ & _ & _ & _ & _ & C2' & _). congruence. }
  assert (G3 : tlo s3 = tlo st /\ glo s3 = glo st /\ gactive s3 = gactive st /\ nge s3 = (nge st + 1)%nat /\
    thi s3 = right_end st /\ ghi s3 = g).
  { unfold s3, s2. cbn. repeat split; try congruence; lia. }
  assert (Ev3 : evald st (tr s3) (right_end st) g).
  { eapply evald_core; [|  |exact Ev]; [apply (sh_core _ _ _ Q0)|]. intros e [<-|[]]. change (tr s3) with (tr s1). rewrite Tc. left. reflexivity. }
  clearbody s3. clear s2 Sg. destruct G3 as (G1 & G2 & G3 & G4 & G5 & G6).
  pose proof (shell_rootdir _ _ Q3) as G7. destruct (shell_arr _ _ Q3 A) as (A3 & K3).
  pose proof (sh_core _ _ _ Q3) as C3.
  destruct (root_find_spec fuel s3 A3 ltac:(lia) ltac:(lra) ltac:(congruence) ltac:(congruence)) as [(D1 & D2)|[(x & D1 & D2 & D3)|(x & y & D)]].
  - left. rewrite D1. split; [reflexivity|]. rewrite T3, G1, G5 in D2. exact D2.
  - right. rewrite D1. cbn [bind]. eexists. eexists. split; [reflexivity|].
    rewrite G2, G3, G6, G7 in D3. subst x.
    split; [|split; [|split; [|split; [|split]]]].
    + eapply shell_trans; [exact Q3|].
      apply shell_quiet; [reflexivity|left; reflexivity|reflexivity|reflexivity|cbn; rewrite G6; auto|reflexivity|reflexivity|reflexivity].
    + cbn. rewrite G6. exact Lg.
    + intros i Li. rewrite <- G3. apply act_spec. exact Li.
    + cbn. lia.
    + cbn. rewrite G4, Nat.sub_diag. cbn. pose proof (Rabs_pos (right_end st - tlo st)). lra.
    + unfold quiet_interval. cbn. rewrite G4, G5, G6. auto.
  - right. destruct D as (D1 & D2 & D3 & D4 & D5 & D6 & D7 & D8 & D9 & D10 & D11). rewrite D1. cbn [bind].
    set (u := set_gactive _ y). set (v := set_glo (grout u) (set_tlo (trout u) u)).
    assert (Qv : shell prob x v).
    { eapply shell_trans; [exact D3|].
      apply shell_quiet; [reflexivity|left; reflexivity|reflexivity|reflexivity| |reflexivity|reflexivity|reflexivity].
      intros _. unfold v, u. cbn. rewrite D5. destruct (sr_hi _ _ D2) as [(_ & X)|X]; [rewrite X, G6; exact Lg|exact (evald_length _ _ _ _ X)]. }
    assert (Qs : shell prob st v) by (eapply shell_trans; [exact Q3|]; eapply shell_trans; [exact (sr_shell _ _ D2)|exact Qv]).
    assert (Hv : trout v = thi x /\ tlo v = thi x /\ glo v = ghi x /\ nge v = nge x /\ iroots v = iroots y /\
      gactive v = vtab nr (fun i => if negb (bget (gactive y) i) && sneqb (vget (grout y) i) szero then true else bget (gactive y) i)).
    { unfold v, u. cbn. rewrite D4, D5, D7. repeat split. }
    clearbody v. clear u. destruct Hv as (V1 & V2 & V3 & V4 & V5 & V6).
    destruct (shell_arr _ _ Qs A) as (Av & Kv).
    destruct (eval_at v (trout v) Av ltac:(lia)) as (w & rw & Ew & Rw & Sw & Evw). rewrite Ew. cbn [bind].
    apply rootst_fields in Rw. destruct Rw as (W1 & W2 & _ & _ & W3 & _ & _ & _ & _ & _ & _ & W4 & W5).
    exists w, RootFound. split; [reflexivity|]. split; [eapply shell_trans; eassumption|].
    assert (In3 : forall e, In e (tr x) -> In e (tr w)) by (intros e Hi; apply (shell_in _ _ Sw), (shell_in _ _ Qv), Hi).
    assert (Hr : evald st (tr w) (thi x) (ghi x)).
    { destruct (sr_hi _ _ D2) as [(X & Y)|X].
      - rewrite X, Y, G5, G6. eapply evald_core; [reflexivity| |exact Ev3]. intros e Hi. apply In3, (shell_in _ _ (sr_shell _ _ D2)), Hi.
      - eapply evald_core; [|exact In3|exact X]. exact C3. }
    assert (Hl : (tlo x = tlo st /\ glo x = glo st) \/ evald st (tr w) (tlo x) (glo x)).
    { destruct (sr_lo _ _ D2) as [(X & Y)|X]; [left; split; congruence|]. right. eapply evald_core; [|exact In3|exact X]. exact C3. }
    rewrite W3, V3, W5, V6. split; [exact (evald_length _ _ _ _ Hr)|]. split.
    { intros i Li. rewrite D5, D6, G3. apply act_spec. exact Li. }
    destruct (sr_evals _ _ D2) as (N1 & N2). rewrite W4, V4. split; [lia|]. rewrite G4, G5, G1, T3 in *. split.
    { pose proof (Rabs_pos (thi x - tlo x)). lra. }
    exists (tlo x), (glo x). rewrite G3, G7 in *. constructor; rewrite ?W3, ?V3, ?W2, ?V2, ?W1, ?V5.
    + exact Hl.
    + exact Hr.
    + destruct (sr_pos _ _ D2) as (a & b & P1 & P2 & P3 & P4). exists a, b. rewrite G1, G5 in *. auto.
    + exact D8.
    + exact D9.
    + split; [exact D10|exact D11].
    + intros Hc. pose proof (gs_eval prob v w _ _ Av ltac:(lia) Ew) as G. rewrite V1 in G.
      destruct (core_interp prob v st (sh_core _ _ _ Qs) (thi x)) as (X1 & X2 & X3). rewrite X1, Hc, X2, X3 in G. tauto.
Qed.

(** ** r_check2 *)

Lemma vget_upd (l : list R) i j v : (i < length l)%nat -> vget (upd l i v) j = if (i =? j)%nat then v else vget l j.
Proof.
  intros L. unfold vget. destruct (Nat.eqb_spec i j) as [<-|Ne]; [apply nth_upd_eq; exact L|apply nth_upd_neq; exact Ne].
Qed.

Lemma close_scan_other (gact : list bool) (gh : list R) k : forall is ir gl z ir' gl' cl zr, ~ In k is ->
  close_scan is gact gh ir gl z = (ir', gl', cl, zr) -> vget gl' k = vget gl k.
Proof.
  induction is as [|j is IH]; intros ir gl z ir' gl' cl zr Nk E; cbn in E.
  - injection E as _ <- _ _. reflexivity.
  - assert (j <> k) by (intros ->; apply Nk; left; reflexivity).
    assert (Nk' : ~ In k is) by (intros X; apply Nk; right; exact X).
    destruct (bget gact j); [|exact (IH _ _ _ _ _ _ _ Nk' E)].
    destruct (Reqb _ _); destruct (Rltb 0 (vget ir j)).
    + injection E as _ <- _ _. reflexivity.
    + exact (IH _ _ _ _ _ _ _ Nk' E).
    + rewrite (IH _ _ _ _ _ _ _ Nk' E). unfold vget. apply nth_upd_neq. congruence.
    + exact (IH _ _ _ _ _ _ _ Nk' E).
Qed.

Lemma close_scan_spec (gact : list bool) (gh : list R) : forall is ir gl z ir' gl' cl zr, NoDup is ->
  (forall i, In i is -> (i < length ir)%nat /\ (i < length gl)%nat) ->
  close_scan is gact gh ir gl z = (ir', gl', cl, zr) ->
  length gl' = length gl /\ length ir' = length ir /\
  (forall i, vget gl' i = vget gl i \/ (vget gl' i = vget gh i /\ 0 < vget ir i /\ bget gact i = true)) /\
  (cl = true <-> exists i, In i is /\ bget gact i = true /\ vget gh i = 0 /\ 0 < vget ir i) /\
  (cl = false ->
    (zr = true <-> z = true \/ exists i, In i is /\ bget gact i = true /\ vget gh i = 0) /\
    (forall i, In i is -> bget gact i = true -> vget gh i = 0 -> vget ir' i = 1) /\
    (forall i, ~ (In i is /\ bget gact i = true /\ vget gh i = 0) -> vget ir' i = vget ir i) /\
    (forall i, In i is -> bget gact i = true -> vget gh i <> 0 -> 0 < vget ir i -> vget gl' i = vget gh i) /\
    (forall i, ~ (In i is /\ bget gact i = true /\ vget gh i <> 0 /\ 0 < vget ir i) -> vget gl' i = vget gl i)).
Proof.
  induction is as [|k is IH]; intros ir gl z ir' gl' cl zr ND Hlen E.
  { cbn in E. injection E as <- <- <- <-. split; [reflexivity|]. split; [reflexivity|]. split; [auto|].
    split; [split; [discriminate|intros (i & [] & _)]|]. intros _.
    split; [split; [auto|intros [X|(i & [] & _)]; exact X]|]. split; [intros i []|]. split; [auto|]. split; [intros i []|auto]. }
  assert (ND' : NoDup is) by (inversion ND; assumption). assert (Nk : ~ In k is) by (inversion ND; assumption).
  assert (Hlen' : forall i, In i is -> (i < length ir)%nat /\ (i < length gl)%nat) by (intros i Hi; apply Hlen; right; exact Hi).
  destruct (Hlen k (or_introl eq_refl)) as (Lk & Lk').
  cbn [close_scan] in E. cbn in E.
  assert (Skip : (bget gact k = false \/ vget gh k <> 0 /\ ~ 0 < vget ir k) ->
    close_scan is gact gh ir gl z = (ir', gl', cl, zr) ->
    length gl' = length gl /\ length ir' = length ir /\
    (forall i, vget gl' i = vget gl i \/ (vget gl' i = vget gh i /\ 0 < vget ir i /\ bget gact i = true)) /\
    (cl = true <-> exists i, In i (k :: is) /\ bget gact i = true /\ vget gh i = 0 /\ 0 < vget ir i) /\
    (cl = false ->
      (zr = true <-> z = true \/ exists i, In i (k :: is) /\ bget gact i = true /\ vget gh i = 0) /\
      (forall i, In i (k :: is) -> bget gact i = true -> vget gh i = 0 -> vget ir' i = 1) /\
      (forall i, ~ (In i (k :: is) /\ bget gact i = true /\ vget gh i = 0) -> vget ir' i = vget ir i) /\
      (forall i, In i (k :: is) -> bget gact i = true -> vget gh i <> 0 -> 0 < vget ir i -> vget gl' i = vget gh i) /\
      (forall i, ~ (In i (k :: is) /\ bget gact i = true /\ vget gh i <> 0 /\ 0 < vget ir i) -> vget gl' i = vget gl i))).
  { intros Hk Ec. destruct (IH _ _ _ _ _ _ _ ND' Hlen' Ec) as (I1 & I2 & I3 & I4 & I5).
    split; [exact I1|]. split; [exact I2|]. split; [exact I3|]. split.
    - rewrite I4. split; intros (i & Hi & A & B & C); exists i; (split; [|auto]).
      + right; exact Hi.
      + destruct Hi as [<-|Hi]; [|exact Hi]. exfalso. destruct Hk as [Hk|(Hk & _)]; [congruence|contradiction].
    - intros Hc. destruct (I5 Hc) as (J1 & J2 & J3 & J4 & J5). split; [|split; [|split; [|split]]].
      + rewrite J1. split; (intros [X|(i & Hi & A & B)]; [auto|]); right; exists i; (split; [|auto]).
        * right; exact Hi.
        * destruct Hi as [<-|Hi]; [|exact Hi]. exfalso. destruct Hk as [Hk|(Hk & _)]; [congruence|contradiction].
      + intros i [<-|Hi] A B; [|auto]. exfalso. destruct Hk as [Hk|(Hk & _)]; [congruence|contradiction].
      + intros i N. apply J3. intros (X & Y). apply N. split; [right; exact X|exact Y].
      + intros i [<-|Hi] A B C; [|auto]. exfalso. destruct Hk as [Hk|(_ & Hk)]; [congruence|contradiction].
      + intros i N. apply J5. intros (X & Y). apply N. split; [right; exact X|exact Y]. }
  destruct (bget gact k) eqn:Ea; [|apply Skip; [auto|exact E]].
  destruct (Reqb (Rabs (vget gh k)) 0) eqn:Ez.
  - apply abs_zero in Ez. destruct (Rltb 0 (vget ir k)) eqn:Er.
    + apply Rltb_true in Er. injection E as <- <- <- <-. split; [reflexivity|]. split; [reflexivity|]. split; [auto|].
      split; [|discriminate]. split; [|reflexivity]. intros _. exists k. split; [left; reflexivity|auto].
    + apply Rltb_false in Er.
      assert (Hlen2 : forall i, In i is -> (i < length (upd ir k 1%R))%nat /\ (i < length gl)%nat)
        by (intros i Hi; rewrite upd_length; exact (Hlen' i Hi)).
      destruct (IH _ _ _ _ _ _ _ ND' Hlen2 E) as (I1 & I2 & I3 & I4 & I5).
      rewrite upd_length in I2.
      assert (Hu : forall i, i <> k -> vget (upd ir k 1%R) i = vget ir i).
      { intros i Ne. rewrite vget_upd by exact Lk. destruct (Nat.eqb_spec k i); [congruence|reflexivity]. }
      split; [exact I1|]. split; [exact I2|].
      assert (I3' : forall i, vget gl' i = vget gl i \/ (vget gl' i = vget gh i /\ 0 < vget ir i /\ bget gact i = true /\ i <> k)).
      { intros i. destruct (Nat.eq_dec i k) as [->|Ne].
        - destruct cl.
          + destruct (I3 k) as [X|(X & _)]; [auto|].
            (* index k is not touched any more *)
            left. exact (close_scan_other gact gh k is _ _ _ _ _ _ _ Nk E).
          + left. destruct (I5 eq_refl) as (_ & _ & _ & _ & J5). apply J5. intros (X & _). contradiction.
        - destruct (I3 i) as [X|(X & Y & W)]; [auto|]. right. rewrite (Hu i Ne) in Y. auto. }
      split; [intros i; destruct (I3' i) as [X|(X & Y & W & _)]; auto|]. split.
      * rewrite I4. split.
        -- intros (i & Hi & A & B & C). exists i. assert (i <> k) by (intros ->; contradiction). rewrite Hu in C by assumption.
           split; [right; exact Hi|auto].
        -- intros (i & [<-|Hi] & A & B & C); [lra|]. assert (i <> k) by (intros ->; contradiction). exists i. rewrite Hu by assumption. auto.
      * intros Hc. destruct (I5 Hc) as (J1 & J2 & J3 & J4 & J5). split; [|split; [|split; [|split]]].
        -- split; [|intros _; apply J1; auto]. intros _. right. exists k. split; [left; reflexivity|auto].
        -- intros i [<-|Hi] A B; [|auto]. rewrite J3 by (intros (X & _); contradiction).
           rewrite vget_upd by exact Lk. rewrite Nat.eqb_refl. reflexivity.
        -- intros i N. assert (Ne : i <> k) by (intros ->; apply N; split; [left; reflexivity|auto]).
           rewrite J3; [apply Hu; exact Ne|]. intros (X & Y). apply N. split; [right; exact X|exact Y].
        -- intros i [<-|Hi] A B C; [contradiction|]. assert (i <> k) by (intros ->; contradiction). apply J4; auto. rewrite Hu; assumption.
        -- intros i N. apply J5. intros (X & A & B & C). assert (i <> k) by (intros ->; contradiction).
           rewrite Hu in C by assumption. apply N. split; [right; exact X|auto].
  - apply abs_nonzero in Ez. destruct (Rltb 0 (vget ir k)) eqn:Er; [|apply Skip; [apply Rltb_false in Er; right; split; [exact Ez|lra]|exact E]].
    apply Rltb_true in Er.
    assert (Hlen2 : forall i, In i is -> (i < length ir)%nat /\ (i < length (upd gl k (vget gh k)))%nat)
      by (intros i Hi; rewrite upd_length; exact (Hlen' i Hi)).
    destruct (IH _ _ _ _ _ _ _ ND' Hlen2 E) as (I1 & I2 & I3 & I4 & I5).
    rewrite upd_length in I1.
    assert (Hu : forall i, i <> k -> vget (upd gl k (vget gh k)) i = vget gl i).
    { intros i Ne. rewrite vget_upd by exact Lk'. destruct (Nat.eqb_spec k i); [congruence|reflexivity]. }
    assert (Hk : vget (upd gl k (vget gh k)) k = vget gh k) by (rewrite vget_upd by exact Lk'; rewrite Nat.eqb_refl; reflexivity).
    split; [exact I1|]. split; [exact I2|]. split.
    { intros i. destruct (Nat.eq_dec i k) as [->|Ne].
      - right. split; [|auto]. destruct (I3 k) as [X|(X & _)]; congruence.
      - rewrite <- (Hu i Ne). apply I3. }
    split.
    * rewrite I4. split; intros (i & Hi & A & B & C); exists i; (split; [|auto]).
      -- right; exact Hi.
      -- destruct Hi as [<-|Hi]; [contradiction|exact Hi].
    * intros Hc. destruct (I5 Hc) as (J1 & J2 & J3 & J4 & J5). split; [|split; [|split; [|split]]].
      -- rewrite J1. split; (intros [X|(i & Hi & A & B)]; [auto|]); right; exists i; (split; [|auto]).
         ++ right; exact Hi.
         ++ destruct Hi as [<-|Hi]; [contradiction|exact Hi].
      -- intros i [<-|Hi] A B; [contradiction|auto].
      -- intros i N. apply J3. intros (X & Y). apply N. split; [right; exact X|exact Y].
      -- intros i [<-|Hi] A B C; [|auto]. rewrite J5 by (intros (X & _); contradiction). exact Hk.
      -- intros i N. assert (Ne : i <> k) by (intros ->; apply N; split; [left; reflexivity|auto]).
         rewrite J5; [apply Hu; exact Ne|]. intros (X & Y). apply N. split; [right; exact X|exact Y].
Qed.

(** The zeros at the last root. *)
Definition zero_at (gact : list bool) (g : list R) (i : nat) : Prop := bget gact i = true /\ vget g i = 0.

Record rechecked (st : state) (g : list R) (st' : state) (r : result root_status (err R)) : Prop := mkrechecked {
  rc_shell : shell prob st st';
  rc_tlo : tlo st' = tlo st;
  rc_act : gactive st' = gactive st;
  rc_eval : evald st (tr st') (tlo st) g;
  rc_len : length (glo st') = nr /\ length (iroots st') = nr;
  rc_case :
    ((forall i, (i < nr)%nat -> ~ zero_at (ga st) g i) /\ r = Ok RootContinue /\ glo st' = g /\
      forall i, (i < nr)%nat -> vget (iroots st') i = 0) \/
    ((exists i, (i < nr)%nat /\ zero_at (ga st) g i) /\
     exists y ypv,
      let tp := tlo st + root_ttol st * Rsignum (hh st) in
      let gp := vtab nr (p_root prob tp y ypv) in
      In (CRoot tp y ypv) (tr st') /\
      ((tp - tn (nlp st)) * hh st < 0 -> time_check st tp = None -> y = interp_y prob st tp /\ ypv = interp_yp prob st tp) /\
      (forall i, vget (glo st') i = vget g i \/ (zero_at (ga st) g i /\ vget (glo st') i = vget gp i)) /\
      match r with
      | Err e => e = EIda (CloseRoots (tlo st)) /\ exists i, (i < nr)%nat /\ zero_at (ga st) g i /\ zero_at (ga st) gp i
      | Ok q =>
          (forall i, (i < nr)%nat -> ~ (zero_at (ga st) g i /\ zero_at (ga st) gp i)) /\
          (q = RootFound <-> exists i, (i < nr)%nat /\ zero_at (ga st) gp i) /\
          (forall i, (i < nr)%nat -> vget (iroots st') i = 1 /\ (zero_at (ga st) g i \/ zero_at (ga st) gp i) \/
             vget (iroots st') i = 0 /\ ~ zero_at (ga st) g i /\ ~ zero_at (ga st) gp i) /\
          (forall i, (i < nr)%nat -> zero_at (ga st) g i -> vget (glo st') i = vget gp i)
      end) }.

Lemma r_check2_spec (st : state) : arrays st -> (kused st <= 5)%nat ->
  (irfnd st = false /\ r_check2 prob st = Ret (st, Ok RootContinue)) \/
  (irfnd st = true /\ exists st' r g, r_check2 prob st = Ret (st', r) /\ rechecked st g st' r).
Proof.
  intros A K. unfold r_check2. destruct (irfnd st); cbn [negb]; [right; split; [reflexivity|]|left; auto].
  destruct (eval_at st (tlo st) A K) as (s & r & E & Rs & Sh & Ev). rewrite E. cbn [bind].
  pose proof (rootst_fields _ _ Rs) as Rf. destruct Rf as (_ & Rf1 & Rf2 & _ & Rf3 & _ & _ & _ & _ & _ & _ & Rf4 & Rf5).
  rewrite Rf1.
  destruct (call_root prob s (tlo st) (yy (nlp s)) (yp (nlp s))) as (s1, g) eqn:Er.
  assert (Eg : g = vtab nr (p_root prob (tlo st) (yy (nlp s)) (yp (nlp s)))) by (unfold call_root in Er; congruence).
  rewrite <- Eg in Ev. pose proof (evald_length _ _ _ _ Ev) as Lg.
  pose proof (root_glo_shell prob _ _ _ _ _ _ Er) as Sg.
  pose proof (shell_call prob _ _ _ _ _ _ Er) as (Cc & _ & _ & _ & Rc & _ & _ & Tc & _).
  apply rootst_fields in Rc. destruct Rc as (_ & Rc1 & Rc2 & _ & Rc3 & _ & _ & _ & _ & _ & _ & Rc4 & Rc5).
  set (s2 := set_nge (nge s1 + 1) (set_glo g s1)) in *.
  assert (Q2 : shell prob st s2) by (eapply shell_trans; eassumption).
  assert (F2 : tlo s2 = tlo st /\ glo s2 = g /\ gactive s2 = gactive st /\ tr s2 = CRoot (tlo st) (yy (nlp s)) (yp (nlp s)) :: tr st).
  { unfold s2. cbn. repeat split; try congruence. rewrite Tc. f_equal. apply get_solution_frame in E. destruct E as (_ & _ & _ & _ & E).
    unfold nlprest in E. injection E. intros. congruence. }
  clearbody s2. destruct F2 as (G1 & G2 & G3 & G4).
  assert (Ev2 : evald st (tr s2) (tlo st) g).
  { eapply evald_core; [reflexivity| |exact Ev]. intros e [<-|[]]. rewrite G4. left. reflexivity. }
  cbv zeta. rewrite G2, G3.
  set (b0 := fun i => bget (gactive st) i && (sabs (vget g i) =? szero)%sc).
  assert (Hb0 : forall i, b0 i = true <-> zero_at (gactive st) g i).
  { intros i. unfold b0, zero_at. rewrite andb_true_iff. cbn. rewrite abs_zero. tauto. }
  match goal with |- context [set_iroots ?v s2] => set (ir := v) end.
  assert (Eir : ir = vtab nr (fun i => if b0 i then sone else szero)) by reflexivity. clearbody ir.
  set (s3 := set_iroots ir s2).
  assert (Q3 : shell prob st s3).
  { eapply shell_trans; [exact Q2|]. apply shell_quiet; [reflexivity|left; reflexivity|reflexivity|reflexivity|auto|reflexivity|reflexivity|reflexivity]. }
  assert (F3 : tlo s3 = tlo st /\ glo s3 = g /\ gactive s3 = gactive st /\ iroots s3 = ir /\ tr s3 = tr s2) by (unfold s3; cbn; auto).
  clearbody s3. destruct F3 as (H1' & H2' & H3' & H4' & H5').
  assert (Lir : length ir = nr) by (rewrite Eir; apply vtab_length).
  assert (Hir : forall i, (i < nr)%nat -> vget ir i = if b0 i then 1 else 0).
  { intros i Li. rewrite Eir. unfold vget. rewrite nth_vtab by exact Li. reflexivity. }
  destruct (existsb b0 (seq 0 nr)) eqn:Ex.
  2:{ assert (N : forall i, (i < nr)%nat -> b0 i = false).
      { intros i Li. destruct (b0 i) eqn:Eb; [|reflexivity]. exfalso.
        assert (existsb b0 (seq 0 nr) = true); [|congruence]. apply existsb_exists. exists i. split; [apply in_seq; lia|exact Eb]. }
      exists s3, (Ok RootContinue), g. split; [reflexivity|]. constructor.
      - exact Q3.
      - exact H1'.
      - exact H3'.
      - rewrite H5'. exact Ev2.
      - rewrite H2', H4'. auto.
      - left. split; [|split; [reflexivity|split; [exact H2'|]]].
        + intros i Li Z. apply Hb0 in Z. rewrite N in Z by exact Li. discriminate.
        + intros i Li. rewrite H4', Hir, N by exact Li. reflexivity. }
  apply existsb_exists in Ex. destruct Ex as (i0 & Hi0 & Hz0). apply in_seq in Hi0.
  set (s4 := set_ttol (root_ttol s3) s3).
  assert (Q4 : shell prob st s4).
  { eapply shell_trans; [exact Q3|]. apply shell_quiet; [reflexivity|left; reflexivity|reflexivity|reflexivity|auto|reflexivity|reflexivity|reflexivity]. }
  assert (F4 : tlo s4 = tlo st /\ glo s4 = g /\ gactive s4 = gactive st /\ iroots s4 = ir /\ tr s4 = tr s2 /\ ttol s4 = root_ttol s3) by (unfold s4; cbn; repeat split; assumption).
  clearbody s4. destruct F4 as (I1 & I2 & I3 & I4 & I5 & I6).
  pose proof (core_fields _ _ (sh_core _ _ _ Q4)) as C4.
  destruct C4 as (_ & C4p & _ & _ & _ & _ & _ & _ & _ & _ & _ & _ & C4h & _ & _ & _ & _ & _ & C4t & _).
  assert (Ht : root_ttol s3 = root_ttol st).
  { pose proof (core_fields _ _ (sh_core _ _ _ Q3)) as C3.
    destruct C3 as (_ & _ & _ & _ & _ & _ & _ & _ & _ & _ & _ & _ & C3h & _ & _ & _ & _ & _ & C3t & _).
    unfold root_ttol. rewrite C3h, C3t. reflexivity. }
  rewrite I6, Ht, C4h, I1, C4t.
  set (tp := (tlo st + root_ttol st * ssignum (hh st))%sc).
  set (X := if (szero <=? (tp - tn (nlp st)) * hh st)%sc then _ else _).
  assert (HX : exists s5, X = Ret s5 /\ shell prob s4 s5 /\ rootst s5 = rootst s4 /\ tr s5 = tr s4 /\
     ((tp - tn (nlp st)) * hh st < 0 -> time_check st tp = None -> yy (nlp s5) = interp_y prob st tp /\ yp (nlp s5) = interp_yp prob st tp)).
  { unfold X. change (szero <=? (tp - tn (nlp st)) * hh st)%sc with (Rleb 0 ((tp - tn (nlp st)) * hh st)).
    destruct (Rleb 0 ((tp - tn (nlp st)) * hh st)) eqn:El.
    - apply Rleb_true in El. rewrite C4p. destruct (nth_error (phi st) 1) as [p1|] eqn:Ep.
      2:{ apply nth_error_None in Ep. destruct A as (A & _). lia. }
      unfold aget. rewrite Ep. cbn [bind]. eexists. split; [reflexivity|].
      split; [apply shell_quiet; [reflexivity|left; reflexivity|reflexivity|reflexivity|auto|reflexivity|reflexivity|reflexivity]|].
      split; [reflexivity|]. split; [reflexivity|]. lra.
    - destruct (shell_arr _ _ Q4 A) as (A4 & K4). destruct (eval_at s4 tp A4 ltac:(lia)) as (s5 & r5 & E5 & R5 & S5 & _).
      rewrite E5. cbn [bind]. exists s5. split; [reflexivity|]. split; [exact S5|]. split; [exact R5|]. split.
      + apply get_solution_frame in E5. destruct E5 as (_ & _ & _ & _ & E5). unfold nlprest in E5. injection E5. intros. congruence.
      + intros _ Hc. pose proof (gs_eval prob s4 s5 tp _ A4 ltac:(lia) E5) as G.
        destruct (core_interp prob s4 st (sh_core _ _ _ Q4) tp) as (X1 & X2 & X3). rewrite X1, Hc, X2, X3 in G. tauto. }
  clearbody X. destruct HX as (s5 & -> & S5 & R5 & T5 & V5). cbn [bind].
  apply rootst_fields in R5. destruct R5 as (R51 & R52 & _ & _ & R53 & _ & _ & _ & _ & _ & _ & R54 & R55).
  destruct (call_root prob s5 tp (yy (nlp s5)) (yp (nlp s5))) as (s6, gp) eqn:Er6.
  assert (Eg6 : gp = vtab nr (p_root prob tp (yy (nlp s5)) (yp (nlp s5)))) by (unfold call_root in Er6; congruence).
  pose proof (root_ghi_shell prob _ _ _ _ _ _ Er6) as Sg6.
  pose proof (shell_call prob _ _ _ _ _ _ Er6) as (_ & _ & _ & _ & Rc6 & _ & _ & Tc6 & Lg6).
  apply rootst_fields in Rc6. destruct Rc6 as (Rc60 & Rc61 & Rc62 & _ & Rc63 & _ & _ & _ & _ & _ & _ & Rc64 & Rc65).
  set (s7 := set_nge (nge s6 + 1) (set_ghi gp s6)) in *.
  assert (F7 : gactive s7 = gactive st /\ ghi s7 = gp /\ iroots s7 = ir /\ glo s7 = g /\ tlo s7 = tlo st /\
    tr s7 = CRoot tp (yy (nlp s5)) (yp (nlp s5)) :: tr s2).
  { split; [exact (eq_trans Rc65 (eq_trans R55 I3))|]. split; [reflexivity|]. split; [exact (eq_trans Rc60 (eq_trans R51 I4))|].
    split; [exact (eq_trans Rc63 (eq_trans R53 I2))|]. split; [exact (eq_trans Rc61 (eq_trans R52 I1))|].
    change (tr s7) with (tr s6). rewrite Tc6, T5, I5. reflexivity. }
  assert (Q7 : shell prob st s7) by (eapply shell_trans; [exact Q4|]; eapply shell_trans; [exact S5|exact Sg6]).
  clearbody s7. destruct F7 as (W1 & W2 & W3 & W4 & W5 & W6). rewrite W1, W2, W3, W4.
  destruct (close_scan (seq 0 nr) (gactive st) gp ir g false) as (((ir' & gl') & cl) & zr) eqn:Ecs.
  apply close_scan_spec in Ecs; [|apply seq_NoDup|intros i Hi; apply in_seq in Hi; lia].
  destruct Ecs as (L1 & L2 & L3 & L4 & L5).
  set (s8 := set_glo gl' (set_iroots ir' s7)).
  assert (Q8 : shell prob st s8).
  { eapply shell_trans; [exact Q7|]. apply shell_quiet; [reflexivity|left; reflexivity|reflexivity|reflexivity|intros _; unfold s8; cbn; congruence|reflexivity|reflexivity|reflexivity]. }
  assert (F8 : gactive s8 = gactive st /\ tlo s8 = tlo st /\ glo s8 = gl' /\ iroots s8 = ir' /\ tr s8 = tr s7) by (unfold s8; cbn; auto).
  clearbody s8. destruct F8 as (Y1 & Y2 & Y3 & Y4 & Y5).
  assert (Hpos : forall i, (i < nr)%nat -> (0 < vget ir i <-> zero_at (gactive st) g i)).
  { intros i Li. rewrite Hir by exact Li. rewrite <- Hb0. destruct (b0 i); split; intros; try lra; try reflexivity; discriminate. }
  assert (Hout : forall i, ~ (i < nr)%nat -> vget ir i = 0).
  { intros i Li. rewrite Eir. unfold vget. apply nth_vtab_out. lia. }
  assert (Common : forall r, (match r with
      | Err e => e = EIda (CloseRoots (tlo st)) /\ exists i, (i < nr)%nat /\ zero_at (ga st) g i /\ zero_at (ga st) gp i
      | Ok q =>
          (forall i, (i < nr)%nat -> ~ (zero_at (ga st) g i /\ zero_at (ga st) gp i)) /\
          (q = RootFound <-> exists i, (i < nr)%nat /\ zero_at (ga st) gp i) /\
          (forall i, (i < nr)%nat -> vget (iroots s8) i = 1 /\ (zero_at (ga st) g i \/ zero_at (ga st) gp i) \/
             vget (iroots s8) i = 0 /\ ~ zero_at (ga st) g i /\ ~ zero_at (ga st) gp i) /\
          (forall i, (i < nr)%nat -> zero_at (ga st) g i -> vget (glo s8) i = vget gp i)
      end) -> rechecked st g s8 r).
  { intros q Hq. constructor.
    - exact Q8.
    - exact Y2.
    - exact Y1.
    - eapply evald_core; [reflexivity| |exact Ev2]. intros e Hi. rewrite Y5, W6. right. exact Hi.
    - rewrite Y3, Y4. split; congruence.
    - right. split; [exists i0; split; [lia|apply Hb0; exact Hz0]|].
      exists (yy (nlp s5)), (yp (nlp s5)). cbv zeta. change (tlo st + root_ttol st * Rsignum (hh st)) with tp. rewrite <- Eg6.
      split; [rewrite Y5, W6; left; reflexivity|]. split; [exact V5|]. split; [|exact Hq].
      intros i. rewrite Y3. destruct (L3 i) as [Z|(Z1 & Z2 & Z3)]; [auto|]. right. split; [|exact Z1].
      destruct (Nat.lt_ge_cases i nr) as [Li|Li]; [apply Hpos; assumption|]. rewrite Hout in Z2 by lia. lra. }
  exists s8. destruct cl.
  - eexists. exists g. split; [reflexivity|]. apply Common. split; [rewrite Y2; reflexivity|].
    destruct (proj1 L4 eq_refl) as (i & Hi & Z1 & Z2 & Z3). apply in_seq in Hi. exists i. split; [lia|].
    split; [apply Hpos; [lia|exact Z3]|]. split; assumption.
  - destruct (L5 eq_refl) as (J1 & J2 & J3 & J4 & J5).
    assert (Nz : forall i, (i < nr)%nat -> ~ (zero_at (ga st) g i /\ zero_at (ga st) gp i)).
    { intros i Li (Z1 & Z2 & Z3). assert (false = true); [|discriminate]. apply L4. exists i.
      split; [apply in_seq; lia|]. split; [exact Z2|]. split; [exact Z3|]. apply Hpos; assumption. }
    assert (Hfl : forall i, (i < nr)%nat -> vget (iroots s8) i = 1 /\ (zero_at (ga st) g i \/ zero_at (ga st) gp i) \/
             vget (iroots s8) i = 0 /\ ~ zero_at (ga st) g i /\ ~ zero_at (ga st) gp i).
    { intros i Li. rewrite Y4. assert (Hs : In i (seq 0 nr)) by (apply in_seq; lia).
      destruct (bget (gactive st) i) eqn:Eai.
      - destruct (Req_dec (vget gp i) 0) as [Zp|Zp].
        + left. split; [apply J2; assumption|]. right. split; assumption.
        + rewrite J3 by (intros (_ & _ & Z); contradiction). rewrite Hir by exact Li. destruct (b0 i) eqn:Eb.
          * left. split; [reflexivity|]. left. apply Hb0. exact Eb.
          * right. split; [reflexivity|]. split; [intros Z; apply Hb0 in Z; congruence|intros (_ & Z); contradiction].
      - rewrite J3 by (intros (_ & Z & _); congruence). rewrite Hir by exact Li.
        assert (Eb : b0 i = false) by (unfold b0; rewrite Eai; reflexivity). rewrite Eb.
        right. split; [reflexivity|]. split; intros (Z & _); congruence. }
    assert (Hgl : forall i, (i < nr)%nat -> zero_at (ga st) g i -> vget (glo s8) i = vget gp i).
    { intros i Li Z. rewrite Y3. apply J4; [apply in_seq; lia|apply Z| |apply Hpos; assumption].
      intros Z0. apply (Nz i Li). split; [exact Z|]. split; [apply Z|exact Z0]. }
    assert (Hzr : zr = true <-> exists i, (i < nr)%nat /\ zero_at (ga st) gp i).
    { rewrite J1. split.
      - intros [Z|(i & Hi & Z)]; [discriminate|]. apply in_seq in Hi. exists i. split; [lia|exact Z].
      - intros (i & Li & Z). right. exists i. split; [apply in_seq; lia|exact Z]. }
    destruct zr; eexists; exists g; (split; [reflexivity|]); apply Common; (split; [exact Nz|]); (split; [|auto]).
    + split; [intros _; apply Hzr; reflexivity|reflexivity].
    + split; [discriminate|]. intros Z. apply Hzr in Z. discriminate.
Qed.

(** ** r_check1 *)
Lemma r_check1_spec (st st' : state) : r_check1 prob st = Ret st' ->
  tlo st' = tn (nlp st) /\ length (glo st') = nr /\
  (exists evs, tr st' = evs ++ tr st) /\
  (forall i, (i < nr)%nat -> exists t y ypv, In (CRoot t y ypv) (tr st') /\ vget (glo st') i = p_root prob t y ypv i) /\
  (forall p0 p1, nth_error (phi st) 0 = Some p0 -> nth_error (phi st) 1 = Some p1 ->
    (forall i, (i < nr)%nat -> p_root prob (tn (nlp st)) p0 p1 i <> 0) ->
    forall i, (i < nr)%nat -> bget (gactive st') i = bget (gactive st) i).
Proof.
  intros E. unfold r_check1 in E. cbv zeta in E.
  apply bind_ret_inv in E. destruct E as (p0 & E0 & E). cbv beta in E.
  apply bind_ret_inv in E. destruct E as (p1 & E1 & E). cbv beta in E.
  cbn [phi set_ttol set_tlo set_iroots] in E0, E1.
  set (s1 := set_ttol _ _) in E.
  assert (F1 : tlo s1 = tn (nlp st) /\ tr s1 = tr st /\ gactive s1 = gactive st) by (unfold s1; cbn; auto).
  clearbody s1. destruct F1 as (F2 & F3 & F4).
  destruct (call_root prob s1 (tlo s1) p0 p1) as (s2, g) eqn:Er.
  assert (Eg : g = vtab nr (p_root prob (tlo s1) p0 p1)) by (unfold call_root in Er; congruence).
  pose proof (shell_call prob _ _ _ _ _ _ Er) as (_ & _ & _ & _ & Rc & _ & _ & Tc & Lg).
  apply rootst_fields in Rc. destruct Rc as (_ & Rc1 & _ & _ & _ & _ & _ & _ & _ & _ & _ & _ & Rc5).
  cbv zeta in E. cbn [glo set_nge set_glo gactive] in E.
  set (b0 := fun i => (sabs (vget g i) =? szero)%sc) in *.
  assert (Hg : forall i, (i < nr)%nat -> vget g i = p_root prob (tn (nlp st)) p0 p1 i).
  { intros i Li. rewrite Eg, F2. unfold vget. rewrite nth_vtab by exact Li. reflexivity. }
  assert (Hp : forall q0 q1, nth_error (phi st) 0 = Some q0 -> nth_error (phi st) 1 = Some q1 -> q0 = p0 /\ q1 = p1).
  { intros q0 q1 X Y. unfold aget in E0, E1. rewrite X in E0. rewrite Y in E1. apply ret_inj in E0, E1. auto. }
  set (act0 := vtab nr _) in E.
  assert (Ha0 : (forall i, (i < nr)%nat -> b0 i = false) -> forall i, (i < nr)%nat -> bget act0 i = bget (gactive st) i).
  { intros Hz i Li. unfold act0, bget. rewrite nth_vtab by exact Li. fold (b0 i). rewrite Hz by exact Li. rewrite Rc5, F4. reflexivity. }
  assert (Hz : forall q0 q1, nth_error (phi st) 0 = Some q0 -> nth_error (phi st) 1 = Some q1 ->
    (forall i, (i < nr)%nat -> p_root prob (tn (nlp st)) q0 q1 i <> 0) -> forall i, (i < nr)%nat -> b0 i = false).
  { intros q0 q1 X Y Z i Li. destruct (Hp _ _ X Y) as (-> & ->). unfold b0. cbn.
    destruct (Reqb (Rabs (vget g i)) 0) eqn:Eb; [|reflexivity]. apply abs_zero in Eb. rewrite Hg in Eb by exact Li. destruct (Z i Li Eb). }
  clearbody act0.
  set (s3 := set_gactive act0 _) in E.
  assert (F5 : tlo s3 = tn (nlp st) /\ glo s3 = g /\ gactive s3 = act0 /\ tr s3 = CRoot (tn (nlp st)) p0 p1 :: tr st).
  { unfold s3. cbn. repeat split; try congruence. }
  clearbody s3. destruct F5 as (G1 & G2 & G3 & G4).
  assert (Hc : forall i, (i < nr)%nat -> vget g i = p_root prob (tn (nlp st)) p0 p1 i) by exact Hg.
  destruct (existsb b0 (seq 0 nr)) eqn:Ex.
  - set (s4 := on_nlp _ s3) in E.
    assert (F6 : tlo s4 = tn (nlp st) /\ glo s4 = g /\ gactive s4 = act0 /\ tr s4 = CRoot (tn (nlp st)) p0 p1 :: tr st) by (unfold s4; cbn; auto).
    clearbody s4. destruct F6 as (I1 & I2 & I3 & I4).
    match type of E with context [call_root prob s4 ?t ?y ?q] => set (tp := t) in E; set (yv := y) in E end.
    destruct (call_root prob s4 tp yv p1) as (s5, gp) eqn:Er5.
    assert (Egp : gp = vtab nr (p_root prob tp yv p1)) by (unfold call_root in Er5; congruence).
    pose proof (shell_call prob _ _ _ _ _ _ Er5) as (_ & _ & _ & _ & Rc' & _ & _ & Tc' & Lgp).
    apply rootst_fields in Rc'. destruct Rc' as (_ & Rc1' & _ & _ & Rc2' & _ & _ & _ & _ & _ & _ & _ & Rc5').
    cbv zeta in E. cbn [ghi glo set_nge set_ghi gactive] in E. apply ret_inj in E.
    assert (X : tlo st' = tn (nlp st) /\ tr st' = CRoot tp yv p1 :: CRoot (tn (nlp st)) p0 p1 :: tr st /\
      glo st' = vtab nr (fun i => if negb (bget (gactive s5) i) && sneqb (sabs (vget gp i)) szero then vget gp i else vget (glo s5) i)).
    { rewrite <- E. split; [exact (eq_trans Rc1' I1)|]. split; [|reflexivity]. transitivity (tr s5); [reflexivity|]. rewrite Tc', I4. reflexivity. }
    destruct X as (X1 & X2 & X3).
    split; [exact X1|]. split; [rewrite X3; apply vtab_length|].
    split; [exists [CRoot tp yv p1; CRoot (tn (nlp st)) p0 p1]; exact X2|].
    split.
    + intros i Li. rewrite X2, X3. unfold vget at 1. rewrite nth_vtab by exact Li.
      destruct (negb _ && _).
      * exists tp, yv, p1. split; [left; reflexivity|]. rewrite Egp. unfold vget. rewrite nth_vtab by exact Li. reflexivity.
      * exists (tn (nlp st)), p0, p1. split; [right; left; reflexivity|]. rewrite Rc2', I2. apply Hc. exact Li.
    + intros q0 q1 Y0 Y1 Y2. exfalso. apply existsb_exists in Ex. destruct Ex as (i & Hi & Eb). apply in_seq in Hi.
      rewrite (Hz _ _ Y0 Y1 Y2 i ltac:(lia)) in Eb. discriminate.
  - apply ret_inj in E. subst st'. split; [exact G1|]. split; [rewrite G2; exact Lg|]. split; [exists [CRoot (tn (nlp st)) p0 p1]; exact G4|].
    split.
    + intros i Li. exists (tn (nlp st)), p0, p1. rewrite G4, G2. split; [left; reflexivity|]. apply Hc. exact Li.
    + intros q0 q1 Y0 Y1 Y2 i Li. rewrite G3. apply Ha0; [exact (Hz _ _ Y0 Y1 Y2)|exact Li].
Qed.

End Search.
