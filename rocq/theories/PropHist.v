(** * PropHist: coefficients, predictor and dense output follow the step history
    (C20-C25, C41, C69, rest of C32)

    Over the reals.  The theorems speak of lives in which the nonlinear solver
    has reported no failure ([get_num_nonlin_solv_conv_fails] is 0).  With the
    crate's Newton solver that is every life ([newton_reports_no_failure]);
    what goes wrong after a reported failure is shown in PropHistBad. *)
Require Import List Arith Bool Lia Reals Lra Psatz.
Import ListNotations.
Require Import Verif.Base Verif.Scalar Verif.ScalarR Verif.Dense Verif.Norms Verif.NormsR Verif.Newton Verif.NewtonSpec Verif.IdaState
  Verif.IdaNls Verif.IdaCore Verif.IdaRoots Verif.IdaSolve Verif.IdaIo Verif.BaseFacts Verif.NewtonFacts
  Verif.IdaFacts Verif.IdaLoops Verif.IdaStep Verif.IdaSpec Verif.IdaShell Verif.IdaReach Verif.IdaInv
  Verif.IdaCount Verif.IdaLife Verif.IdaTrace Verif.IdaAccept Verif.IdaStepR Verif.IdaSafe Verif.IdaInterp Verif.IdaCall Verif.IdaCallR
  Verif.Script Verif.PropSafe Verif.PropSolve Verif.ExampleR Verif.PropStepR Verif.PropStop
  Verif.RSum Verif.VecR Verif.PolyR Verif.HistSpec Verif.IdaHist Verif.IdaHistLife Verif.InterpR Verif.IdaNoFail Verif.IdaRow0.
Open Scope R_scope.

(** ** The crate's Newton solver reports no failure *)
Theorem newton_reports_no_failure : forall (T LSt : Type) (Sc : Scalar T) (LS : LSolver T LSt) (prob : problem T) ewt_set
    fuel c yy0 yp0 (st : ida T LSt (newton T)),
  config_ok c -> @reach T LSt (newton T) _ _ (NewtonNLS fuel) prob ewt_set c yy0 yp0 st ->
  get_num_nonlin_solv_conv_fails st = 0%nat.
Proof.
  intros T LSt Sc LS prob ew fuel c yy0 yp0 st Hc Hr.
  apply (@reach_good T LSt (newton T) _ _ (NewtonNLS fuel) prob ew (newton_lawful fuel) (fun _ => True)
    (newton_never_fails prob fuel) c Hc yy0 yp0 I st Hr).
Qed.
Print Assumptions newton_reports_no_failure.

Section HistProps.
Context {LSt NSt : Type} `{LSolver R LSt} `{NLSolver R NSt}.
Variable prob : problem R.
Variable ewt_set : list R -> list R.
Hypothesis Hl : @nls_lawful R NSt _.
Notation n := (model_size prob).
Notation state := (ida R LSt NSt).
Notation tr st := (trace (lp (nlp st))).

(** In [st] a step of some call begins an attempt, after [nef] attempts that
    failed the error test: [s0] is the object before the call, [s] the state
    handed to [Ida::step]. *)
Definition attempt_in (c : @config R) (yy0 yp0 : list R) (st : state) (nef : nat) : Prop :=
  exists s0 s, reach prob ewt_set c yy0 yp0 s0 /\ pieces prob ewt_set s0 s /\ limited s /\ fresh prob ewt_set s /\
    tries prob (tn (nlp s)) (st_init s) st nef.

Lemma attempt_HJ c yy0 yp0 (st : state) nef : config_ok c -> attempt_in c yy0 yp0 st nef ->
  instep st /\ HJ prob c yy0 (Some (tn (nlp st), nef)) st.
Proof.
  intros Hc (s0 & s & Hr & Hp & Hlim & Hf & Ht).
  pose proof (reach_ord prob ewt_set Hl c yy0 yp0 s0 Hc Hr) as O0.
  pose proof (reach_HJ prob ewt_set Hl c Hc yy0 yp0 s0 Hr) as J0.
  destruct (pieces_life prob ewt_set Hl (HJ prob c yy0) s0 s (HJ_shell prob c yy0) (HJ_lims prob c yy0)
    (HJ_first prob ewt_set c yy0) (HJ_in prob ewt_set c yy0) Hp O0 J0) as (O1 & J1).
  destruct (tries_life prob Hl (HJ prob c yy0) _ _ _ _ (HJ_retry prob ewt_set c yy0) (instep_init _ O1)
    (HJ_begin prob ewt_set c yy0 _ O1 J1 Hlim Hf) Ht) as (I1 & J2).
  split; [exact I1|]. destruct (tl_in _ _ _ _ (proj1 (proj1 J2))) as (E & _). rewrite <- E. exact J2.
Qed.

Lemma attempt_hist c yy0 yp0 (st : state) nef : config_ok c -> attempt_in c yy0 yp0 st nef ->
  get_num_nonlin_solv_conv_fails st = 0%nat ->
  instep st /\ J prob c (Some (tn (nlp st), nef)) st /\ every (bdf prob c yy0) (tr st) /\ raised st /\
  (nst st = 0%nat -> early_fail (tr st) = false -> row (phi st) 0 = yy0) /\
  exists b0 b1, hpart prob c yy0 (Some (tn (nlp st), nef)) st b0 b1.
Proof.
  intros Hc Ha Hn. destruct (attempt_HJ c yy0 yp0 st nef Hc Ha) as (I1 & J1 & L1).
  destruct (L1 Hn) as (A1 & A2 & A3 & A4). split; [exact I1|]. split; [exact J1|]. split; [exact A1|]. split; [exact A2|].
  split; [exact A3|]. apply A4. right. discriminate.
Qed.

Lemma try_facts (st st1 : state) ck ek ek1 r : instep st -> try_step prob st = Ret (st1, ck, ek, ek1, r) ->
  tried prob st st1 ck r /\ attempted prob st st1 r.
Proof.
  intros Hi E. pose proof (is_kk _ Hi). pose proof (is_max _ Hi). split.
  - eapply (try_step_spec prob Hl); [apply Hi|lia|exact E].
  - eapply (try_step_calls prob Hl); [apply Hi|lia|exact E].
Qed.

(** ** C20 *)
(** The step being attempted, then the accepted ones, latest first; the very
    first step counts as its own predecessor. *)
Definition sizes (h : R) (l : list (astep R)) : list R :=
  h :: match l with [] => [h] | _ => map (fun a => a_h a) l end.

Lemma hist_sums hs (st : state) : hist prob hs st -> length (steps (tr st)) = nst st ->
  (nst st = 0%nat -> tm hs 0 - tm hs 1 = hh st) ->
  forall i, (i <= Nat.max 1 (nst st))%nat ->
  rsum i (fun l => nth (S l) (sizes (hh st) (steps (tr st))) 0) = tm hs 0 - tm hs i.
Proof.
  intros Hh Ln H1 i Li. unfold sizes. cbn [nth].
  destruct (steps (tr st)) as [|a l] eqn:Es.
  - cbn in Ln. destruct i as [|[|i]]; [cbn; ring| |lia]. cbn [rsum nth]. rewrite H1 by auto. ring.
  - induction i as [|i IH]; [cbn; ring|]. cbn [rsum]. rewrite IH by lia.
    assert (L : (i < length (a :: l))%nat) by (cbn [length] in Ln |- *; lia).
    destruct (nth_error (a :: l) i) as [b|] eqn:Eb; [|apply nth_error_None in Eb; lia].
    assert (Ea : nth i (map (fun a => a_h a) (a :: l)) 0 = a_h b).
    { apply nth_error_nth. rewrite nth_error_map, Eb. reflexivity. }
    rewrite Ea, <- (h_size _ _ _ Hh i b) by (rewrite Es; exact Eb). ring.
Qed.

Lemma rprod_pow i (h : R) f : (forall l, (l < i)%nat -> f l <> 0) -> rprod i (fun l => h / f l) = h ^ i / rprod i f.
Proof.
  intros Hf. rewrite rprod_div by exact Hf. f_equal. induction i as [|i IH]; [reflexivity|].
  cbn [rprod pow]. rewrite IH by (intros; apply Hf; lia). ring.
Qed.

Theorem C20_coefficients_partial c yy0 yp0 (st st1 : state) nef ck ek ek1 r :
  config_ok c -> attempt_in c yy0 yp0 st nef -> try_step prob st = Ret (st1, ck, ek, ek1, r) ->
  get_num_nonlin_solv_conv_fails st = 0%nat ->
  let k := kk st in let h := hh st in
  let size l := nth l (sizes h (steps (tr st))) 0 in
  let ps i := rsum (S i) size in
  let ps' i := rsum (S i) (fun l => size (S l)) in
  (1 <= k <= Nat.max 1 (length (steps (tr st))))%nat /\
  (forall i, (i <= k)%nat ->
     nth i (psi st1) 0 = ps i /\ ps i <> 0 /\
     nth i (alpha st1) 0 = h / ps i /\
     nth i (gamma st1) 0 = rsum i (fun l => / ps l) /\
     nth i (sigma st1) 0 = INR (fact i) * h ^ i / rprod i (fun l => ps (S l)) /\
     nth i (beta st1) 0 = rprod i ps / rprod i ps') /\
  cj (lp (nlp st1)) = rsum k (fun i => / INR (i + 1)) / h.
Proof.
  intros Hc Ha Et Hn k h size ps ps'.
  destruct (attempt_hist c yy0 yp0 st nef Hc Ha Hn) as (Hi & Jst & Hev & Hra & _ & b0 & b1 & Hp).
  destruct (try_facts _ _ _ _ _ _ Hi Et) as (Htr & Hat).
  destruct (try_bdf prob ewt_set c yy0 st st1 _ nef ck r b0 b1 Hi Jst Hp Hev Hra Htr Hat) as (Ac & Hh & Hnx & _).
  set (hs := map apt (steps (tr st)) ++ [b0; b1]) in *.
  destruct Hp as (B1 & B2 & B3 & B4 & B5 & B6). fold hs in B3, B4.
  pose proof (tl_n _ _ _ _ (proj1 Jst)) as Ln. pose proof (is_kk _ Hi) as Hk.
  assert (H1 : nst st = 0%nat -> tm hs 0 - tm hs 1 = hh st).
  { intros Hz. destruct (B5 Hz) as (_ & Q). rewrite <- Q. symmetry. apply (h_psi _ _ _ B3). lia. }
  assert (Hkm : (kk st <= Nat.max 1 (nst st))%nat).
  { destruct (Nat.eq_dec (nst st) 0) as [Hz|Hz]; [pose proof (is_zero _ Hi Hz); lia|]. pose proof (h_ord _ _ _ B3 Hz). lia. }
  assert (Hs : forall i, (i <= Nat.max 1 (nst st))%nat -> rsum i (fun l => size (S l)) = tm hs 0 - tm hs i).
  { intros i Li. apply hist_sums; assumption. }
  assert (Hps : forall i, (i <= k)%nat -> ps i = tm hs 0 + hh st - tm hs i).
  { intros i Li. unfold ps. rewrite rsum_first. rewrite Hs by (unfold k in Li; lia). unfold size, sizes. cbn [nth]. unfold h. ring. }
  assert (Hps' : forall i, (i < k)%nat -> ps' i = tm hs 0 - tm hs (S i)).
  { intros i Li. unfold ps'. apply Hs. unfold k in Li. lia. }
  assert (Hkk : (k <= nst st + 1)%nat) by (unfold k; lia).
  assert (Hne : forall i, (i <= k)%nat -> ps i <> 0).
  { intros i Li. rewrite Hps by exact Li. apply (new_psi prob hs st B3 Hh). lia. }
  split; [rewrite Ln; unfold k in *; lia|]. split.
  - intros i Li. destruct (ac_coef _ _ _ _ Ac i Li) as (C1 & C2 & C3).
    assert (Ep : forall l, (l <= i)%nat -> vget (psi st1) l = ps l).
    { intros l Ll. rewrite (ac_psi _ _ _ _ Ac) by (fold k; lia). symmetry. apply Hps. lia. }
    split; [exact (Ep i (le_n i))|]. split; [apply Hne; exact Li|].
    split; [change (vget (alpha st1) i = h / ps i); rewrite C1, Ep by lia; reflexivity|].
    split; [change (vget (gamma st1) i = rsum i (fun l => / ps l)); rewrite C3; apply rsum_ext; intros l Ll; rewrite Ep by lia; reflexivity|].
    split.
    + change (vget (sigma st1) i = INR (fact i) * h ^ i / rprod i (fun l => ps (S l))). rewrite C2.
      rewrite (rprod_ext i _ (fun l => h / ps (S l))) by (intros l Ll; rewrite Ep by lia; reflexivity).
      rewrite rprod_pow by (intros l Ll; apply Hne; lia). unfold Rdiv. ring.
    + change (vget (beta st1) i = rprod i ps / rprod i ps'). rewrite (ac_beta _ _ _ _ Ac i Li).
      rewrite rprod_div.
      * f_equal; apply rprod_ext; intros l Ll; symmetry; [apply Hps|apply Hps']; lia.
      * intros l Ll. apply (old_psi prob hs st B3 Hh). lia.
  - rewrite (tr_cj _ _ _ _ _ Htr). exact (cj_R st).
Qed.

(** ** C21 *)
Theorem C21_rejected_attempt_undone_partial c yy0 yp0 (st : state) nef ncf st' ncf' nef' r :
  config_ok c -> attempt_in c yy0 yp0 st nef ->
  attempt_step prob st (tn (nlp st)) ncf nef = Ret (st', ncf', nef', r) ->
  (forall q, r <> Ok (Some q)) ->
  get_num_nonlin_solv_conv_fails st = 0%nat -> steps (tr st) <> [] ->
  tn (nlp st') = tn (nlp st) /\ kused st' = kused st /\ hused st' = hused st /\ nst st' = nst st /\ steps (tr st') = steps (tr st) /\
  (forall i, (i < kk st')%nat -> nth i (psi st') 0 = nth i (psi st) 0) /\
  (forall j x, (x < n)%nat -> nth x (nth j (phi st') []) 0 = nth x (nth j (phi st) []) 0).
Proof.
  intros Hc Ha Es Hr Hn Hsn.
  destruct (attempt_hist c yy0 yp0 st nef Hc Ha Hn) as (Hi & Jst & Hev & Hra & _ & b0 & b1 & Hp).
  pose proof (is_kk _ Hi) as Hk. pose proof (is_max _ Hi) as Hm.
  pose proof (tl_n _ _ _ _ (proj1 Jst)) as Ln.
  assert (Hz : nst st <> 0%nat) by (intros X; rewrite X in Ln; destruct (steps (tr st)); [congruence|discriminate]).
  destruct (attempt_spec prob Hl _ _ _ _ _ _ _ _ (is_arr _ Hi) ltac:(lia) Es) as (st1 & ck & ek & ek1 & r1 & Et & Htr & _ & Cs).
  destruct (try_facts _ _ _ _ _ _ Hi Et) as (_ & Hat).
  destruct (try_bdf prob ewt_set c yy0 st st1 _ nef ck r1 b0 b1 Hi Jst Hp Hev Hra Htr Hat) as (Ac & Hh & Hnx & evs & _ & T2 & _).
  set (hs := map apt (steps (tr st)) ++ [b0; b1]) in *.
  destruct Hp as (B1 & B2 & B3 & B4 & B5 & B6). fold hs in B3, B4.
  pose proof (tr_cnt _ _ _ _ _ Htr) as U4. pose proof (tr_ord _ _ _ _ _ Htr) as U7. pose proof (tr_h _ _ _ _ _ Htr) as U8.
  assert (Fin : forall ps ph, restored prob st1 ps ph -> psi st' = ps -> phi st' = ph -> (kk st' <= kk st)%nat ->
     (forall i, (i < kk st')%nat -> nth i (psi st') 0 = nth i (psi st) 0) /\
     (forall j x, (x < n)%nat -> nth x (nth j (phi st') []) 0 = nth x (nth j (phi st) []) 0)).
  { intros ps ph Q E1 E2 Lk. destruct (restored_hist prob hs st st1 ck r1 ps ph Hi B3 Hh Ac Htr Q) as (R1 & R2).
    rewrite E1, E2. split; [|exact R2]. intros i Li. change (vget ps i = vget (psi st) i). rewrite R1 by lia.
    symmetry. apply (h_psi _ _ _ B3). lia. }
  destruct Cs as [(_ & _ & _ & ->)|[(-> & _ & Hrt & _ & _ & _)|(e & -> & Hg & _)]].
  - exfalso. exact (Hr _ eq_refl).
  - pose proof (rt_nlp _ _ _ _ _ Hrt) as V1. pose proof (rt_keep _ _ _ _ _ Hrt) as V2. pose proof (rt_kk _ _ _ _ _ Hrt) as V3.
    pose proof (tr_res _ _ _ _ _ Htr) as (Hkn & _).
    destruct (rt_hist _ _ _ _ _ Hrt) as (ps & ph & G1 & G2 & _). pinj.
    destruct G2 as (G2 & G3); [congruence|].
    split; [rewrite V1; reflexivity|]. split; [congruence|]. split; [congruence|]. split; [congruence|].
    split; [rewrite V1; exact T2|]. apply (Fin ps ph G1 G2 G3). rewrite V3. destruct (nef <=? 1)%nat; lia.
  - pose proof (gu_nlp _ _ _ _ Hg) as V1. pose proof (gu_keep _ _ _ _ Hg) as V2. pinj.
    split; [rewrite V1; reflexivity|]. split; [congruence|]. split; [congruence|]. split; [congruence|].
    split; [rewrite V1; exact T2|]. apply (Fin _ _ (gu_hist _ _ _ _ Hg) eq_refl eq_refl). lia.
Qed.

(** ** C22 *)
(** Prediction of an attempt. *)
Theorem C22_predictor_partial c yy0 yp0 (st st1 : state) nef ck ek ek1 r :
  config_ok c -> attempt_in c yy0 yp0 st nef -> try_step prob st = Ret (st1, ck, ek, ek1, r) ->
  get_num_nonlin_solv_conv_fails st = 0%nat ->
  tn (nlp st1) = tn (nlp st) + hh st /\ (1 <= kk st <= Nat.max 1 (length (steps (tr st))))%nat /\
  forall x, (x < n)%nat -> exists p,
    interpolates (g_t0 c) yy0 (tr st) (kk st) x p /\
    nth x (yypredict (nlp st1)) 0 = peval p (tn (nlp st) + hh st) /\
    derivable_pt_lim (peval p) (tn (nlp st) + hh st) (nth x (yppredict (nlp st1)) 0).
Proof.
  intros Hc Ha Et Hn.
  destruct (attempt_hist c yy0 yp0 st nef Hc Ha Hn) as (Hi & Jst & Hev & Hra & _ & b0 & b1 & Hp).
  destruct (try_facts _ _ _ _ _ _ Hi Et) as (Htr & Hat).
  destruct (try_bdf prob ewt_set c yy0 st st1 _ nef ck r b0 b1 Hi Jst Hp Hev Hra Htr Hat) as (Ac & Hh & Hnx & _).
  set (hs := map apt (steps (tr st)) ++ [b0; b1]) in *.
  destruct Hp as (B1 & B2 & B3 & B4 & B5 & B6). fold hs in B3, B4.
  pose proof (tl_n _ _ _ _ (proj1 Jst)) as Ln. pose proof (is_kk _ Hi) as Hk.
  assert (Ho : (kk st <= Nat.max 1 (nst st))%nat).
  { destruct (Nat.eq_dec (nst st) 0) as [Hz|Hz]; [pose proof (is_zero _ Hi Hz); lia|]. pose proof (h_ord _ _ _ B3 Hz). lia. }
  pose proof (h_now _ _ _ B3) as Hnow.
  split; [rewrite (tr_tn _ _ _ _ _ Htr), Hnx, Hnow; reflexivity|]. split; [lia|]. intros x Lx.
  assert (Hd : distinct (kk st) (tm hs)).
  { pose proof (hist_distinct prob hs st B3 Hh) as D. intros i j Li Lj. apply D; lia. }
  destruct (npoly_through (tm hs) (yv hs x) (kk st) Hd) as (p & (Pl & Pn) & Pe). exists p.
  destruct (predicted prob hs _ _ _ _ B3 Hh Ac Htr x Lx) as (P1 & P2).
  split; [|split].
  - split; [exact Pl|]. intros i ti yi Li Ei Hor.
    destruct (points_hs c yy0 st b0 b1 i ti yi B1 B2 Ei Hor) as (X1 & X2). fold hs in X1, X2.
    rewrite X1, (X2 x). apply Pn. exact Li.
  - rewrite Pe, Hnow. exact P1.
  - rewrite Hnow. eapply derivable_ext; [|exact P2]. intros s. symmetry. apply Pe.
Qed.

(** The same seen in the residual calls of a whole life: every y' differs from
    p'(t) by the leading coefficient times the difference of y and p(t). *)
Theorem C22_residual_calls_partial c yy0 yp0 (st : state) :
  config_ok c -> reach prob ewt_set c yy0 yp0 st -> get_num_nonlin_solv_conv_fails st = 0%nat ->
  every (bdf_call n (g_t0 c) yy0) (tr st).
Proof.
  intros Hc Hr Hn. destruct (reach_HJ prob ewt_set Hl c Hc yy0 yp0 st Hr) as (_ & L). destruct (L Hn) as (A & _).
  intros new e past E. exact (proj1 (A new e past E)).
Qed.

(** ** C32, second half *)
Theorem C32_raised_after_constant_steps_partial c yy0 yp0 (st : state) :
  config_ok c -> reach prob ewt_set c yy0 yp0 st -> get_num_nonlin_solv_conv_fails st = 0%nat ->
  every const_raise (tr st).
Proof.
  intros Hc Hr Hn. destruct (reach_HJ prob ewt_set Hl c Hc yy0 yp0 st Hr) as (_ & L). destruct (L Hn) as (A & _).
  intros new e past E. exact (proj2 (A new e past E)).
Qed.

(** ** C41 *)
Lemma every_try_size (c : @config R) trc s h k : every (rlegal c) trc -> last_try trc = Some (s, h, k) -> h <> 0.
Proof.
  induction trc as [|e past IH]; [discriminate|]. intros Ev E.
  assert (Ev2 : every (rlegal c) past) by exact (every_past _ [e] past Ev).
  destruct e; try (apply IH; assumption). cbn in E. injection E as -> -> ->.
  destruct (Ev [] _ _ eq_refl) as (Q & _). exact Q.
Qed.

Theorem C41_constant_steps_partial c yy0 yp0 (st : state) new t y yp past s h k :
  config_ok c -> reach prob ewt_set c yy0 yp0 st -> get_num_nonlin_solv_conv_fails st = 0%nat ->
  tr st = new ++ CRes t y yp :: past -> last_try past = Some (s, h, k) ->
  steps past <> [] \/ early_fail past = false ->
  (forall i a, (i + 1 < k)%nat -> nth_error (steps past) i = Some a -> a_h a = h) ->
  let pts := points (g_t0 c) yy0 past in
  (1 <= k <= length pts)%nat /\ h <> 0 /\
  (forall i ti yi, (i < k)%nat -> nth_error pts i = Some (ti, yi) -> ti = t - INR (i + 1) * h) /\
  forall x, (x < n)%nat -> exists w,
    (length w <= k + 1)%nat /\ peval w t = nth x y 0 /\
    (forall i ti yi, (i < k)%nat -> nth_error pts i = Some (ti, yi) -> peval w ti = nth x yi 0) /\
    derivable_pt_lim (peval w) t (nth x yp 0).
Proof.
  intros Hc Hr Hn Etr Elt Hs Hconst pts.
  destruct (C22_residual_calls_partial c yy0 yp0 st Hc Hr Hn _ _ _ Etr s h k Elt) as (Hk & P).
  destruct (reach_ordJ prob ewt_set Hl _ _ _ _ Hc Hr) as (_ & TL & RL).
  pose proof (rl_every _ _ _ RL) as Ev.
  destruct (Ev _ _ _ Etr) as (h1 & k1 & E1 & Et). rewrite Elt in E1. injection E1 as E2 E3 E4. subst h1 k1 s.
  rewrite Etr in Ev.
  assert (Ev' : every (rlegal c) past) by (apply (every_past _ (new ++ [CRes t y yp])); rewrite <- app_assoc; exact Ev).
  pose proof (every_try_size _ _ _ _ _ Ev' Elt) as Hh.
  pose proof (steps_times c past Ev') as St.
  assert (Lp : length pts = S (length (steps past))) by (unfold pts, points; rewrite app_length, map_length; cbn; lia).
  assert (Ht : forall i ti yi, (i < k)%nat -> nth_error pts i = Some (ti, yi) -> ti = t - INR (i + 1) * h).
  { induction i as [|i IH]; intros ti yi Li Ea.
    - rewrite Et. unfold now. unfold pts, points in Ea. destruct (steps past) as [|b l] eqn:Es; cbn in Ea; injection Ea as <- _; cbn; ring.
    - destruct (nth_error (steps past) i) as [b|] eqn:Eb.
      2:{ apply nth_error_None in Eb. lia. }
      assert (Ep : nth_error pts i = Some (a_t b, a_y b)).
      { unfold pts, points. rewrite nth_error_app1 by (rewrite map_length; apply nth_error_Some; congruence).
        rewrite nth_error_map, Eb. reflexivity. }
      specialize (IH _ _ ltac:(lia) Ep). pose proof (Hconst i b ltac:(lia) Eb) as Hb.
      apply nth_error_split in Eb. destruct Eb as (l1 & l2 & E1 & E2). destruct (St _ _ _ E1) as (E3 & _).
      assert (E4 : reached (g_t0 c) l2 = ti).
      { unfold pts, points in Ea. rewrite E1, map_app, <- app_assoc in Ea. rewrite nth_error_app2 in Ea by (rewrite map_length; lia).
        rewrite map_length in Ea. replace (S i - length l1)%nat with 1%nat in Ea by lia.
        cbn in Ea. destruct l2 as [|a' l2]; cbn in Ea; injection Ea as <- _; reflexivity. }
      rewrite E4, Hb, IH in E3.
      assert (E5 : ti = t - INR (i + 1) * h - h) by lra. rewrite E5. change (S i + 1)%nat with (S (i + 1)).
      rewrite S_INR. ring. }
  split; [lia|]. split; [exact Hh|]. split; [exact Ht|]. intros x Lx. destruct (P x Lx) as (p & d & (Pl & Pn) & Pd & Py).
  set (T := fun i => t - INR (i + 1) * h).
  destruct (rprod_lin_pol k T) as (q & Ql & Qe).
  assert (Hne : forall i, t - T i <> 0).
  { intros i. unfold T. replace (t - (t - INR (i + 1) * h)) with (INR (i + 1) * h) by ring.
    apply Rmult_integral_contrapositive. split; [apply not_0_INR; lia|exact Hh]. }
  pose proof (rprod_neq_0 k (fun l => t - T l) (fun i _ => Hne i)) as Qn.
  set (Q := rprod k (fun l => t - T l)) in *.
  set (C := (nth x y 0 - peval p t) / Q).
  exists (padd p (pscal C q)). split; [rewrite length_padd, length_pscal, Ql; lia|]. split; [|split].
  - rewrite peval_add, peval_scal, Qe. fold Q. unfold C. field. exact Qn.
  - intros i ti yi Li Ea. rewrite peval_add, peval_scal, Qe, (rprod_zero k _ i Li), Rmult_0_r, Rplus_0_r.
    + apply (Pn i); [lia|exact Ea|]. destruct Hs as [Hs|Hs]; [left|right; exact Hs].
      destruct (steps past); [congruence|]. cbn [length] in *. lia.
    + rewrite (Ht i ti yi Li Ea). unfold T. ring.
  - apply (derivable_ext (fun z => peval p z + C * rprod k (fun l => z - T l))).
    { intros z. rewrite peval_add, peval_scal, Qe. reflexivity. }
    rewrite Py. apply derivable_pt_lim_plus; [exact Pd|].
    replace (lead_coeff k h * (nth x y 0 - peval p t)) with (C * (Q * rsum k (fun l => / (t - T l)))).
    + apply (derivable_pt_lim_scal (fun z => rprod k (fun l => z - T l)) C).
      apply rprod_lin_der. intros l _. apply Hne.
    + rewrite (rsum_ext k _ (fun l => / INR (l + 1) * / h)).
      * rewrite rsum_scal_r. unfold C, lead_coeff. field. split; [exact Hh|exact Qn].
      * intros l _. unfold T. replace (t - (t - INR (l + 1) * h)) with (INR (l + 1) * h) by ring.
        apply Rinv_mult.
Qed.

(** Order 1: backward Euler.  Order 2: the classical BDF2. *)
Lemma quad_der a b e t d : derivable_pt_lim (peval [a; b; e]) t d -> d = b + 2 * e * t.
Proof.
  intros Hd. apply (uniqueness_limite (peval [a; b; e]) t); [exact Hd|].
  apply (derivable_ext (fun x => a + (b * x + e * (x * x)))); [intros z; cbn; ring|].
  replace (b + 2 * e * t) with (0 + (b * 1 + e * (1 * t + t * 1))) by ring.
  apply derivable_pt_lim_plus; [apply derivable_pt_lim_const|].
  apply derivable_pt_lim_plus; [apply derivable_pt_lim_scal; apply derivable_pt_lim_id|].
  apply (derivable_pt_lim_scal (fun x => x * x)). apply derivable_pt_lim_mult; apply derivable_pt_lim_id.
Qed.

Lemma quad_pol w : (length w <= 3)%nat -> exists a b e, (forall z, peval w z = peval [a; b; e] z) /\ ((length w <= 2)%nat -> e = 0).
Proof.
  destruct w as [|a [|b [|e [|? ?]]]]; cbn; intros L; try lia.
  - exists 0, 0, 0. split; [intros; ring|auto].
  - exists a, 0, 0. split; [intros; ring|auto].
  - exists a, b, 0. split; [intros; ring|auto].
  - exists a, b, e. split; [intros; ring|lia].
Qed.

Theorem C41_low_orders_partial c yy0 yp0 (st : state) new t y yp past s h k :
  config_ok c -> reach prob ewt_set c yy0 yp0 st -> get_num_nonlin_solv_conv_fails st = 0%nat ->
  tr st = new ++ CRes t y yp :: past -> last_try past = Some (s, h, k) ->
  steps past <> [] \/ early_fail past = false ->
  forall x, (x < n)%nat ->
  (k = 1%nat -> exists t1 y1, nth_error (points (g_t0 c) yy0 past) 0 = Some (t1, y1) /\
     nth x yp 0 = (nth x y 0 - nth x y1 0) / h) /\
  (k = 2%nat -> (forall a rest, steps past = a :: rest -> a_h a = h) ->
   exists t1 y1 t2 y2, nth_error (points (g_t0 c) yy0 past) 0 = Some (t1, y1) /\
     nth_error (points (g_t0 c) yy0 past) 1 = Some (t2, y2) /\
     nth x yp 0 = (3 / 2 * nth x y 0 - 2 * nth x y1 0 + 1 / 2 * nth x y2 0) / h).
Proof.
  intros Hc Hr Hn Etr Elt Hs x Lx.
  assert (Pt : forall i, (i < length (points (g_t0 c) yy0 past))%nat -> exists ti yi, nth_error (points (g_t0 c) yy0 past) i = Some (ti, yi)).
  { intros i Li. destruct (nth_error _ i) as [(ti & yi)|] eqn:E; [eauto|]. apply nth_error_None in E. lia. }
  split.
  - intros ->.
    destruct (C41_constant_steps_partial c yy0 yp0 st new t y yp past s h 1 Hc Hr Hn Etr Elt Hs ltac:(intros; lia)) as (Hk & Hh & Ht & P).
    destruct (P x Lx) as (w & W1 & W2 & W3 & W4). destruct (Pt 0%nat ltac:(lia)) as (t1 & y1 & E1).
    exists t1, y1. split; [exact E1|].
    destruct (quad_pol w ltac:(lia)) as (p & q & e & Hw & He). specialize (He ltac:(lia)). subst e.
    pose proof (derivable_ext _ _ _ _ Hw W4) as W5. apply quad_der in W5.
    specialize (W3 0%nat t1 y1 ltac:(lia) E1). specialize (Ht 0%nat t1 y1 ltac:(lia) E1). cbn in Ht.
    rewrite Hw in W2, W3. rewrite <- W2, <- W3, W5, Ht. cbn. field. exact Hh.
  - intros -> Ha.
    destruct (C41_constant_steps_partial c yy0 yp0 st new t y yp past s h 2 Hc Hr Hn Etr Elt Hs) as (Hk & Hh & Ht & P).
    { intros i b Li Eb. assert (i = 0%nat) as -> by lia. destruct (steps past) as [|a rest]; [discriminate|].
      injection Eb as <-. exact (Ha a rest eq_refl). }
    destruct (Pt 0%nat ltac:(lia)) as (t1 & y1 & E1). destruct (Pt 1%nat ltac:(lia)) as (t2 & y2 & E2).
    exists t1, y1, t2, y2. split; [exact E1|]. split; [exact E2|].
    destruct (P x Lx) as (w & W1 & W2 & W3 & W4).
    destruct (quad_pol w ltac:(lia)) as (p & q & e & Hw & _).
    pose proof (derivable_ext _ _ _ _ Hw W4) as W5. apply quad_der in W5.
    pose proof (W3 0%nat t1 y1 ltac:(lia) E1) as V0. pose proof (W3 1%nat t2 y2 ltac:(lia) E2) as V1.
    pose proof (Ht 0%nat t1 y1 ltac:(lia) E1) as T0. pose proof (Ht 1%nat t2 y2 ltac:(lia) E2) as T1. cbn in T0, T1.
    rewrite Hw in W2, V0, V1. rewrite <- W2, <- V0, <- V1, W5, T0, T1. cbn. field. exact Hh.
Qed.

(** ** C23 *)
Theorem C23_dense_output_partial c yy0 yp0 (st : state) :
  config_ok c -> reach prob ewt_set c yy0 yp0 st -> get_num_nonlin_solv_conv_fails st = 0%nat ->
  steps (tr st) <> [] -> tries_since (tr st) = 0%nat \/ (get_last_order st <= get_current_order st)%nat ->
  (1 <= get_last_order st <= length (steps (tr st)))%nat /\
  forall x, (x < n)%nat -> exists p,
    interpolates (g_t0 c) yy0 (tr st) (get_last_order st) x p /\
    forall t s, get_solution prob st t = Ret (s, Ok tt) ->
      nth x (get_yy s) 0 = peval p t /\ derivable_pt_lim (peval p) t (nth x (get_yp s) 0).
Proof.
  intros Hc Hr Hn Hs Hor.
  destruct (reach_HJ prob ewt_set Hl c Hc yy0 yp0 st Hr) as (Jst & L).
  pose proof (reach_ord prob ewt_set Hl c yy0 yp0 st Hc Hr) as HO.
  destruct (L Hn) as (_ & _ & _ & A). pose proof (tl_n _ _ _ _ (proj1 Jst)) as Ln.
  assert (Hz : nst st <> 0%nat) by (intros X; rewrite X in Ln; destruct (steps (tr st)); [congruence|discriminate]).
  destruct (A (or_introl Hz)) as (b0 & b1 & B1 & B2 & B3 & B4 & B5).
  set (hs := map apt (steps (tr st)) ++ [b0; b1]) in *.
  destruct (rl_h _ _ _ (proj2 Jst) (or_introl Hz)) as (Hh & _).
  destruct (h_ord _ _ _ B3 Hz) as (Hk1 & Hk2).
  destruct HO as (Harr & Hm & Hm2 & Hm3 & Hpos). destruct (Hpos Hz) as (Hku & Hkk & _).
  unfold get_last_order, get_current_order in *.
  assert (Hps : forall i, (i < kused st)%nat -> vget (psi st) i = tm hs 0 - tm hs (S i)).
  { intros i Li. destruct Hor as [Hor|Hor]; [apply (B5 Hor); lia|apply (h_psi _ _ _ B3); lia]. }
  split; [rewrite Ln; lia|]. intros x Lx.
  assert (Hd : distinct (kused st) (tm hs)).
  { pose proof (hist_distinct prob hs st B3 Hh) as D. intros i j Li Lj. apply D; lia. }
  destruct (npoly_through (tm hs) (yv hs x) (kused st) Hd) as (p & (Pl & Pn) & Pe). exists p. split.
  - split; [exact Pl|]. intros i ti yi Li Ei Hor2.
    destruct (points_hs c yy0 st b0 b1 i ti yi B1 B2 Ei Hor2) as (X1 & X2). fold hs in X1, X2.
    rewrite X1, (X2 x). apply Pn. exact Li.
  - intros t s E. pose proof (gs_eval prob st s t _ Harr ltac:(lia) E) as G.
    destruct (time_check st t) as [e|]; [destruct G as (_ & G); discriminate|]. destruct G as (_ & G1 & G2).
    unfold get_yy, get_yp. rewrite G1, G2.
    pose proof (interp_npoly prob hs st B3 Hh Hz ltac:(lia) ltac:(lia) Hps x) as Q.
    split; [rewrite Pe; exact (Q t Lx)|].
    destruct (interp_pol prob st x Lx) as (p2 & _ & P2). destruct (P2 t) as (_ & D).
    eapply derivable_ext; [|exact D]. intros z. rewrite <- (proj1 (P2 z)), Pe. exact (Q z Lx).
Qed.

(** ** C24 *)
Theorem C24_consistent_pair c yy0 yp0 (st : state) :
  config_ok c -> reach prob ewt_set c yy0 yp0 st -> forall x, (x < n)%nat -> exists p,
    (length p <= Nat.max 1 (get_last_order st) + 1)%nat /\
    forall t s, get_solution prob st t = Ret (s, Ok tt) ->
      nth x (get_yy s) 0 = peval p t /\ derivable_pt_lim (peval p) t (nth x (get_yp s) 0).
Proof.
  intros Hc Hr x Lx. pose proof (reach_ord prob ewt_set Hl c yy0 yp0 st Hc Hr) as HO.
  destruct (interp_pol prob st x Lx) as (p & P1 & P2). exists p. split.
  - unfold kord, get_last_order in *. destruct (kused st =? 0)%nat eqn:E; [apply Nat.eqb_eq in E|apply Nat.eqb_neq in E]; lia.
  - intros t s E. assert (Hk : (kused st <= 5)%nat) by (destruct HO as (_ & Hm & _ & Hk & _); lia).
    pose proof (gs_eval prob st s t _ (proj1 HO) Hk E) as G.
    destruct (time_check st t) as [e|]; [destruct G as (_ & G); discriminate|]. destruct G as (_ & G1 & G2).
    unfold get_yy, get_yp. rewrite G1, G2. exact (P2 t).
Qed.

(** ** C25 *)
Lemma nst_steps c yy0 yp0 (st : state) : config_ok c -> reach prob ewt_set c yy0 yp0 st ->
  (steps (tr st) <> [] <-> nst st <> 0%nat).
Proof.
  intros Hc Hr. pose proof (reach_tlink prob ewt_set Hl c Hc yy0 yp0 st Hr) as L. pose proof (tl_n _ _ _ _ L) as Ln.
  destruct (steps (tr st)); cbn in Ln; split; intros; congruence.
Qed.

Theorem C25_at_tn c yy0 yp0 (st : state) a rest :
  config_ok c -> reach prob ewt_set c yy0 yp0 st -> steps (tr st) = a :: rest ->
  get_current_time st = a_t a /\
  exists s, get_solution prob st (get_current_time st) = Ret (s, Ok tt) /\
    forall x, (x < n)%nat -> nth x (get_yy s) 0 = nth x (a_y a) 0.
Proof.
  intros Hc Hr Es. pose proof (reach_row0 prob ewt_set Hl c Hc yy0 yp0 st Hr) as R0.
  destruct (reach_ordJ prob ewt_set Hl _ _ _ _ Hc Hr) as ((Harr & Hm & Hm2 & Hm3 & _) & Jst).
  assert (Hz : nst st <> 0%nat) by (apply (nst_steps c yy0 yp0 st Hc Hr); congruence).
  destruct (hused_last prob c st None Jst Hz) as (a' & rest' & E1 & _ & Hpos).
  split. { pose proof (tl_tn _ _ _ _ (proj1 Jst)) as Q. unfold now in Q. rewrite Es in Q. exact Q. }
  unfold get_current_time. destruct (gs_ret prob st (tn (nlp st)) Harr ltac:(lia)) as (s & E).
  rewrite (time_tn st Hpos) in E. exists s. split; [exact E|]. intros x Lx.
  pose proof (gs_eval prob st s _ _ Harr ltac:(lia) E) as G. rewrite (time_tn st Hpos) in G. destruct G as (_ & G & _).
  unfold get_yy. rewrite G. rewrite <- (R0 a rest Es). exact (interp_now prob st x Lx).
Qed.

(** ** C69 *)
(** The two errors [Ida::step] can return: too many failed error tests, and a
    failure of the nonlinear solver. *)
Definition step_error (e : err R) : Prop := e = EFmt \/ exists m, e = ENls m.

Lemma stop1_kind (st s : state) tout tret itask t e : stop_test1 prob st tout tret itask = Ret (s, t, Err e) ->
  ~ step_error e.
Proof.
  unfold stop_test1, step_error. intros E.
  minv; try discriminate;
    match goal with X : get_solution _ _ _ = Ret (_, Err _) |- _ => destruct (gs_err _ _ _ _ _ X) as (? & ? & ? & ->) | _ => idtac end;
    intros [X|(m & X)]; discriminate.
Qed.

Lemma solve_step_fails c yy0 yp0 (st : state) fuel rfuel tout tret itask st' t e :
  config_ok c -> reach prob ewt_set c yy0 yp0 st -> step_error e ->
  solve prob ewt_set fuel rfuel st tout tret itask = Ret (st', t, Err e) ->
  exists s0 s nl s1 s2, enters prob ewt_set rfuel st tout tret itask s0 /\ loops prob ewt_set rfuel tout itask tret s0 s nl /\
    pre_step prob ewt_set s tret nl = Ret (inr s1) /\ step prob rfuel s1 = Ret (s2, Err e) /\
    step_failed prob s2 tret e = Ret (st', t, Err e).
Proof.
  intros Hc Hr He E. pose proof (reach_ord prob ewt_set Hl c yy0 yp0 st Hc Hr) as O.
  destruct (solve_run _ _ _ _ _ _ _ _ _ _ _ E) as [A|(s0 & s & nl & m & En & L & F)].
  - exfalso. unfold answers in A.
    destruct (solve_start_cases _ _ _ _ _ _ _ _ A) as [(Hz & s & m & X & Q)|[(Hz & s & l & E1 & E2 & E3 & E4 & Q)|(Hz & l & E1 & S1 & Q)]]; try discriminate.
    + injection Q as _ _ ->. destruct He as [He|(m' & He)]; discriminate.
    + destruct (later_call_cases _ _ _ _ _ _ _ Q) as [(_ & y & e' & X & Y)|[(_ & y & _ & _ & X)|[(_ & _ & _ & _ & y & y' & r' & _ & _ & X)|(y & y' & t' & r' & Y1 & Y2 & Y3 & Y4 & X)]]]; try discriminate.
      * injection Y as _ _ <-. apply r_check2_err in X. destruct X as (? & ->). destruct He as [He|(m' & He)]; discriminate.
      * assert (Hr2 : r' = Err e) by (destruct r' as [[]|]; cbn in X; congruence).
        subst r'. exact (stop1_kind _ _ _ _ _ _ _ Y4 He).
  - remember (Err e) as r eqn:Er0.
    destruct F as [st' t r Ep|s1 s2 e1 st' t r Ep Es Ef|s1 s2 u st' t r Ep Es Ef Hr'].
    + exfalso. apply pre_step_shell in Ep. destruct Ep as (S1 & Et & [(Er & M)|(_ & [Er|Er])]);
        rewrite Er in Er0; injection Er0 as <-; destruct He as [He|(m' & He)]; discriminate.
    + pose proof (step_failed_shell _ _ _ _ _ _ _ Ef) as (_ & Er & _).
      assert (e1 = e) by congruence. subst e1. exists s0, s, nl, s1, s2. subst r. auto.
    + exfalso. apply post_step_cases in Ef. destruct Ef as [(_ & x & _ & _ & _ & _ & X)|(x & X1 & X2 & X3 & X4)]; [congruence|].
      subst r. unfold stop_test2 in X4. minv; try discriminate.
      all: match goal with X : stop2_tstop _ _ = Ret _ |- _ => apply stop2_tstop_cases in X; cbn in X; destruct X as (X & _); discriminate end.
Qed.

Lemma solve_step_error c yy0 yp0 (st : state) fuel rfuel tout tret itask st' t e :
  config_ok c -> reach prob ewt_set c yy0 yp0 st -> step_error e ->
  solve prob ewt_set fuel rfuel st tout tret itask = Ret (st', t, Err e) ->
  exists s2, pieces prob ewt_set st s2 /\ step_failed prob s2 tret e = Ret (st', t, Err e).
Proof.
  intros Hc Hr He E. destruct (solve_step_fails _ _ _ _ _ _ _ _ _ _ _ _ Hc Hr He E) as (s0 & s & nl & s1 & s2 & En & L & Ep & Es & Ef).
  exists s2. split; [|exact Ef]. exact (head_step prob ewt_set _ _ _ _ _ _ _ _ _ _ (run_head _ _ _ _ _ _ _ _ _ _ En L) Ep Es).
Qed.

Theorem C69_last_solution c yy0 yp0 (st : state) fuel rfuel tout tret itask st' t e a rest :
  config_ok c -> reach prob ewt_set c yy0 yp0 st -> step_error e ->
  solve prob ewt_set fuel rfuel st tout tret itask = Ret (st', t, Err e) ->
  steps (tr st') = a :: rest ->
  t = a_t a /\ get_current_time st' = a_t a /\
  forall x, (x < n)%nat -> nth x (get_yy st') 0 = nth x (a_y a) 0.
Proof.
  intros Hc Hr He E Es. assert (Hr' : reach prob ewt_set c yy0 yp0 st') by (eapply reach_next; eassumption).
  destruct (solve_step_error _ _ _ _ _ _ _ _ _ _ _ _ Hc Hr He E) as (s2 & Hp & Ef).
  pose proof (reach_ord prob ewt_set Hl c yy0 yp0 st Hc Hr) as O.
  destruct (reach_ordJ prob ewt_set Hl _ _ _ _ Hc Hr) as (_ & J0).
  destruct (pieces_RJ prob ewt_set Hl c yy0 st s2 Hp O (conj J0 (reach_row0 prob ewt_set Hl c Hc yy0 yp0 st Hr))) as (O2 & J2 & R2).
  pose proof (step_failed_shell _ _ _ _ _ _ _ Ef) as (Sf & _). pose proof (sh_core _ _ _ Sf) as Cf.
  destruct (sh_trace _ _ _ Sf) as (evs & T1 & T2 & _).
  assert (Es2 : steps (tr s2) = a :: rest).
  { rewrite <- Es, T1. symmetry. apply calm_app. eapply Forall_impl; [|exact T2]. intros e0. destruct e0; cbn; congruence. }
  assert (Hz : nst s2 <> 0%nat) by (pose proof (tl_n _ _ _ _ (proj1 J2)) as Ln; rewrite Es2 in Ln; cbn in Ln; lia).
  destruct (hused_last prob c s2 None J2 Hz) as (a' & rest' & _ & _ & Hpos).
  pose proof (tl_tn _ _ _ _ (proj1 J2)) as Q. unfold now in Q. rewrite Es2 in Q.
  destruct O2 as (Harr & Hm & Hm2 & Hm3 & _).
  unfold step_failed in Ef. apply bind_ret_inv in Ef. destruct Ef as ((g & rg) & Eg & Ef). cbv beta iota in Ef.
  pose proof (gs_eval prob s2 g _ _ Harr ltac:(lia) Eg) as V. rewrite (time_tn _ Hpos) in V. destruct V as (-> & V & _).
  destruct (gs_tn _ _ _ _ _ Eg) as (G1 & _). injection Ef as <- <-. rewrite G1.
  split; [exact Q|]. split; [change (tn (nlp g) = a_t a); congruence|].
  intros x Lx. change (vget (yy (nlp g)) x = nth x (a_y a) 0). rewrite V, <- (R2 a rest Es2). exact (interp_now prob s2 x Lx).
Qed.

(** The dense output after such a failure: C23_dense_output_partial, whose
    condition then is that the attempt did not lower the order below the last
    one used; C69_dense_output_refuted in PropHistBad for the rest. *)
Theorem C69_dense_output_partial c yy0 yp0 (st : state) fuel rfuel tout tret itask st' t e :
  config_ok c -> reach prob ewt_set c yy0 yp0 st -> step_error e ->
  solve prob ewt_set fuel rfuel st tout tret itask = Ret (st', t, Err e) ->
  steps (tr st') <> [] -> get_num_nonlin_solv_conv_fails st' = 0%nat -> (get_last_order st' <= get_current_order st')%nat ->
  forall x, (x < n)%nat -> exists p,
    interpolates (g_t0 c) yy0 (tr st') (get_last_order st') x p /\
    forall u s, get_solution prob st' u = Ret (s, Ok tt) ->
      nth x (get_yy s) 0 = peval p u /\ derivable_pt_lim (peval p) u (nth x (get_yp s) 0).
Proof.
  intros Hc Hr He E Es Hn Ho. assert (Hr' : reach prob ewt_set c yy0 yp0 st') by (eapply reach_next; eassumption).
  apply (C23_dense_output_partial c yy0 yp0 st' Hc Hr' Hn Es (or_intror Ho)).
Qed.
End HistProps.

(** ** Solvers that report no failure *)
(** For those nothing about failures has to be assumed. *)
Section NeverFails.
Context {LSt NSt : Type} `{LSolver R LSt} `{NLSolver R NSt}.
Variable prob : problem R.
Variable ewt_set : list R -> list R.
Hypothesis Hl : @nls_lawful R NSt _.
Notation n := (model_size prob).
Notation state := (ida R LSt NSt).
Notation tr st := (trace (lp (nlp st))).
Variable good : NSt -> Prop.
Hypothesis Hg : @never_fails R LSt NSt _ _ _ prob good.
Hypothesis Hnew : good (nls_new n MAXNLSIT).

Lemma attempt_ncfn c yy0 yp0 (st : state) nef : config_ok c -> attempt_in prob ewt_set c yy0 yp0 st nef ->
  get_num_nonlin_solv_conv_fails st = 0%nat.
Proof.
  intros Hc (s0 & s & Hr & Hp & Li & Fr & Ht).
  pose proof (reach_good prob ewt_set Hl good Hg c Hc yy0 yp0 Hnew s0 Hr) as G0.
  pose proof (reach_ord prob ewt_set Hl c yy0 yp0 s0 Hc Hr) as O0.
  pose proof (pieces_good prob ewt_set Hl good Hg _ _ O0 G0 Hp) as G1.
  pose proof (pieces_ord prob ewt_set Hl _ _ O0 Hp) as O1.
  exact (proj2 (tries_good prob ewt_set Hl good Hg s st nef O1 Li Fr G1 Ht)).
Qed.

Theorem C20_coefficients c yy0 yp0 (st st1 : state) nef ck ek ek1 r :
  config_ok c -> attempt_in prob ewt_set c yy0 yp0 st nef -> try_step prob st = Ret (st1, ck, ek, ek1, r) ->
  let k := kk st in let h := hh st in
  let size l := nth l (sizes h (steps (tr st))) 0 in
  let ps i := rsum (S i) size in
  let ps' i := rsum (S i) (fun l => size (S l)) in
  (1 <= k <= Nat.max 1 (length (steps (tr st))))%nat /\
  (forall i, (i <= k)%nat ->
     nth i (psi st1) 0 = ps i /\ ps i <> 0 /\
     nth i (alpha st1) 0 = h / ps i /\
     nth i (gamma st1) 0 = rsum i (fun l => / ps l) /\
     nth i (sigma st1) 0 = INR (fact i) * h ^ i / rprod i (fun l => ps (S l)) /\
     nth i (beta st1) 0 = rprod i ps / rprod i ps') /\
  cj (lp (nlp st1)) = rsum k (fun i => / INR (i + 1)) / h.
Proof.
  intros Hc Ha E. exact (C20_coefficients_partial prob ewt_set Hl c yy0 yp0 st st1 nef ck ek ek1 r Hc Ha E (attempt_ncfn _ _ _ _ _ Hc Ha)).
Qed.

Theorem C32_raised_after_constant_steps c yy0 yp0 (st : state) :
  config_ok c -> reach prob ewt_set c yy0 yp0 st -> every const_raise (tr st).
Proof.
  intros Hc Hr. apply (C32_raised_after_constant_steps_partial prob ewt_set Hl c yy0 yp0 st Hc Hr).
  exact (proj2 (reach_good prob ewt_set Hl good Hg c Hc yy0 yp0 Hnew st Hr)).
Qed.
End NeverFails.

(** In particular for the solver of the crate. *)
Theorem C20_coefficients_newton : forall (LSt : Type) (LS : LSolver R LSt) (prob : problem R) ewt_set fuel c yy0 yp0
    (st st1 : ida R LSt (newton R)) nef ck ek ek1 r,
  config_ok c -> @attempt_in LSt (newton R) _ (NewtonNLS fuel) prob ewt_set c yy0 yp0 st nef ->
  @try_step R LSt (newton R) _ _ (NewtonNLS fuel) prob st = Ret (st1, ck, ek, ek1, r) ->
  let k := kk st in let h := hh st in
  let size l := nth l (sizes h (steps (trace (lp (nlp st))))) 0 in
  let ps i := rsum (S i) size in
  let ps' i := rsum (S i) (fun l => size (S l)) in
  (1 <= k <= Nat.max 1 (length (steps (trace (lp (nlp st))))))%nat /\
  (forall i, (i <= k)%nat ->
     nth i (psi st1) 0 = ps i /\ ps i <> 0 /\
     nth i (alpha st1) 0 = h / ps i /\
     nth i (gamma st1) 0 = rsum i (fun l => / ps l) /\
     nth i (sigma st1) 0 = INR (fact i) * h ^ i / rprod i (fun l => ps (S l)) /\
     nth i (beta st1) 0 = rprod i ps / rprod i ps') /\
  cj (lp (nlp st1)) = rsum k (fun i => / INR (i + 1)) / h.
Proof.
  intros LSt LS prob ewt_set fuel c yy0 yp0 st st1 nef ck ek ek1 r Hc Ha E.
  exact (@C20_coefficients LSt (newton R) LS (NewtonNLS fuel) prob ewt_set (newton_lawful fuel) (fun _ => True)
    (newton_never_fails prob fuel) I c yy0 yp0 st st1 nef ck ek ek1 r Hc Ha E).
Qed.

Theorem C32_raised_newton : forall (LSt : Type) (LS : LSolver R LSt) (prob : problem R) ewt_set fuel c yy0 yp0
    (st : ida R LSt (newton R)),
  config_ok c -> @reach R LSt (newton R) _ _ (NewtonNLS fuel) prob ewt_set c yy0 yp0 st ->
  every const_raise (trace (lp (nlp st))).
Proof.
  intros LSt LS prob ewt_set fuel c yy0 yp0 st Hc Hr.
  exact (@C32_raised_after_constant_steps LSt (newton R) LS (NewtonNLS fuel) prob ewt_set (newton_lawful fuel) (fun _ => True)
    (newton_never_fails prob fuel) I c yy0 yp0 st Hc Hr).
Qed.

(** ** Examples *)
Lemma first_attempt {LSt NSt} `{LSolver R LSt} `{NLSolver R NSt} (prob : problem R) fuel (st : ida R LSt NSt) x :
  arrays st -> step prob fuel st = Ret x ->
  exists s ncf nef r, attempt_step prob (st_init st) (tn (nlp (st_init st))) 0 0 = Ret (s, ncf, nef, r).
Proof.
  intros (_ & L & _) E. unfold step in E. rewrite step_init_eq in E by lia. rewrite bind_ret in E.
  apply bind_ret_inv in E. destruct E as ((s & r) & E & _). destruct fuel as [|fuel]; [discriminate|].
  cbn [step_loop] in E. apply bind_ret_inv in E. destruct E as ((((s1 & ncf) & nef) & r1) & E & _).
  replace (tn (nlp (st_init st))) with (tn (nlp st)) by (unfold st_init; cbv zeta; destruct (_ =? _)%nat; reflexivity). eauto.
Qed.

Section Big.
Variable x : R.
Variable m : nat.
(** One step without a correction, then corrections which the error test
    rejects. *)
Definition sbig : script R := Some [0] :: repeat (Some [x]) (S m).
Local Instance NLSbig : NLSolver R (script R) := ScriptNLS sbig.
Notation state := (ida R (list nat) (script R)).
Notation cf := (configR None 1).
Notation reached := (reach scalarR ewtR cf [0] [1]).
Notation tr st := (trace (lp (nlp st))).

Let Hl : @nls_lawful R (script R) _ := script_lawful sbig.

Lemma big_good : Forall (fun o => o <> None) (nls_new (model_size scalarR) MAXNLSIT : script R).
Proof.
  cbn [nls_new NLSbig ScriptNLS]. unfold sbig. constructor; [discriminate|]. apply Forall_forall. intros o Ho.
  apply repeat_spec in Ho. subst o. discriminate.
Qed.

Lemma big_first : exists st : state, reached st /\ nst st = 1%nat /\ tretlast st = tn (nlp st) /\
  nls st = repeat (Some [x]) (S m) /\ row (phi st) 0 = [1] /\ hused st = 1 /\ 1 / 2 <= hh st.
Proof.
  assert (Hs : zhead sbig) by (right; eexists; reflexivity).
  destruct (new_ready sbig None 1 (or_introl Hs)) as (st0 & R0 & U0 & N0).
  destruct (one_call sbig None 1 ltac:(lra) ltac:(discriminate) st0 R0)
    as (st1 & t1 & r1 & E1 & Hsr & Hr1 & Hn1 & Hl1 & _ & Ht1 & Ht1' & _ & _ & Q).
  destruct (Q U0 Hs ltac:(lra) eq_refl) as (Y & Nh & Hu).
  assert (Z0 : nls st0 = sbig).
  { destruct U0 as (z & Ez & ->). destruct (new_exists sbig) as (z' & Ez' & A & _). rewrite Ez in Ez'. injection Ez' as <-. exact A. }
  rewrite Z0 in Hl1.
  assert (Hts : r1 = Success).
  { destruct Hsr as [-> | ->]; [reflexivity|]. exfalso.
    eapply (C68_no_stop_time scalarR ewtR Hl cf [0] [1]); [apply configR_ok|reflexivity|apply R0|exact E1|reflexivity]. }
  exists st1. split; [exact Hr1|]. split; [lia|]. split; [rewrite Ht1; apply Ht1'; exact Hts|]. split; [exact Hl1|].
  pose proof (reached_row sbig None 1 _ Hr1) as Lr. unfold rows1 in Lr.
  split; [|split; [exact Hu|]].
  - destruct (row (phi st1) 0) as [|v [|w l]]; cbn in Lr; try discriminate. unfold vget in Y. cbn in Y. congruence.
  - destruct (next_h_R 0 1 (hh st1) ltac:(lra) ltac:(rewrite Rabs_R1; lra) Nh) as (_ & _ & _ & [-> |[(_ & ->)|[(_ & D)|(p & Hp & ->)]]]); try lra.
Qed.

(** A large correction is rejected. *)
Lemma big_rejects (st s1 : state) nef ck ek ek1 r l : attempt_in scalarR ewtR cf [0] [1] st nef -> nst st = 1%nat -> hused st = 1 ->
  nls st = Some [x] :: l -> ewt (nlp st) = ewtR [1] -> suppressalg st = false -> 0 < hh st -> 2 * (hh st + 1) < hh st * x ->
  try_step scalarR st = Ret (s1, ck, ek, ek1, r) -> r <> Ok tt.
Proof.
  intros Hin Hn Hu Hls Hw Hsup Hh Hbig Et ->.
  assert (Hnc : get_num_nonlin_solv_conv_fails st = 0%nat) by
    exact (attempt_ncfn scalarR ewtR Hl _ (script_never_fails scalarR sbig) big_good _ _ _ _ _ (configR_ok None 1) Hin).
  destruct (attempt_hist scalarR ewtR Hl _ _ _ _ _ (configR_ok None 1) Hin Hnc) as (Is & Js & _).
  pose proof (is_arr _ Is) as Ia. pose proof (is_kk _ Is) as Ik. pose proof (is_max _ Is) as Im.
  pose proof (try_step_spec scalarR Hl _ _ _ _ _ _ Ia ltac:(lia) Et) as Htr.
  destruct (tr_res _ _ _ _ _ Htr) as (_ & _ & _ & _ & Ht). apply Rleb_true in Ht. change sone with 1 in Ht.
  destruct (C20_coefficients_partial scalarR ewtR Hl _ _ _ _ _ _ _ _ _ _ (configR_ok None 1) Hin Et Hnc) as (K1 & K2 & _).
  rewrite (tl_n _ _ _ _ (proj1 Js)), Hn in K1. assert (Hk : kk st = 1%nat) by (cbn in K1; lia).
  destruct (K2 1%nat ltac:(lia)) as (_ & _ & K3 & _).
  destruct (hused_last scalarR cf st _ Js ltac:(lia)) as (a & rest & Ea1 & Ea2 & _).
  rewrite Hu in Ea2. rewrite Ea1 in K3. cbn [sizes rsum nth map] in K3. rewrite <- Ea2 in K3.
  set (h := hh st) in *.
  assert (Hck : h / (h + 1) <= ck).
  { rewrite (tr_ck _ _ _ _ _ Htr). unfold ck_of. rewrite Hk. change (vget (alpha s1) 1) with (nth 1 (alpha s1) 0). rewrite K3.
    replace (0 + h + 1) with (h + 1) by ring. apply Rmax_r. }
  destruct (script_try sbig _ _ _ _ _ _ _ Et) as (_ & _ & P3). destruct (P3 _ _ Hls) as (Ee & _).
  pose proof (tr_ewt _ _ _ _ _ Htr) as W. injection W as W _.
  pose proof (tr_cfg _ _ _ _ _ Htr) as Cf. apply cfg_fields in Cf. destruct Cf as (_ & Cf & _).
  rewrite Ee, W, Hw, Cf, Hsup in Ht. unfold wrms_norm in Ht. rewrite norm_wrms_eq in Ht.
  unfold wrms in Ht. cbn [length rsum nth ewtR ewt_set_ss map] in Ht. cbn in Ht. rewrite Rabs_R1 in Ht.
  replace ((0 + x * (1 / (1 * 1 + 1)) * (x * (1 / (1 * 1 + 1)))) / 1) with ((x / 2) * (x / 2)) in Ht by field.
  assert (Hx : 0 < x) by nra. rewrite sqrt_square in Ht by lra.
  assert (Hc : h / (h + 1) * (x / 2) <= 1). { eapply Rle_trans; [|exact Ht]. apply Rmult_le_compat_r; lra. }
  apply (Rmult_le_compat_r (2 * (h + 1))) in Hc; [|lra].
  replace (h / (h + 1) * (x / 2) * (2 * (h + 1))) with (h * x) in Hc by (field; lra). lra.
Qed.

(** The attempts after the first step. *)
Lemma big_tries t0 (st st' : state) nef : nst st = 1%nat -> nls st = repeat (Some [x]) (S m) -> 0 < hh st -> maxnef st = 10%nat ->
  tries scalarR t0 st st' nef ->
  (nef <= 9)%nat /\ nls st' = repeat (Some [x]) (S m - nef) /\ (/ 4) ^ nef * hh st <= hh st' /\
  nst st' = 1%nat /\ hused st' = hused st /\ ewt (nlp st') = ewt (nlp st) /\ suppressalg st' = suppressalg st /\ maxnef st' = 10%nat.
Proof.
  intros Hn Hs Hh Hm. induction 1 as [|sa nef s1 ck ek ek1 sb Ht IH Et Htr Hnf Hrt].
  - split; [lia|]. rewrite Hs, Nat.sub_0_r. split; [reflexivity|]. split; [cbn; lra|]. auto.
  - destruct IH as (I1 & I2 & I3 & I4 & I5 & I6 & I7 & I8). rewrite I8 in Hnf.
    split; [lia|].
    destruct (script_try sbig _ _ _ _ _ _ _ Et) as (P1 & _).
    pose proof (rt_keep _ _ _ _ _ Hrt) as K. pose proof (tr_cnt _ _ _ _ _ Htr) as C. pose proof (tr_h _ _ _ _ _ Htr) as Kh.
    pose proof (rt_nlp _ _ _ _ _ Hrt) as Kn. pose proof (tr_ewt _ _ _ _ _ Htr) as W. injection W as W _.
    pose proof (rt_cfg _ _ _ _ _ Hrt) as C1. pose proof (tr_cfg _ _ _ _ _ Htr) as C2.
    apply cfg_fields in C1. apply cfg_fields in C2. injection K as K1 K2 K3 K4 K5 K6 K7 K8 K9 K10. injection C as Ca Cb Cc. injection Kh as Ka Kb Kc.
    split; [|split; [|split; [congruence|split; [congruence|split; [rewrite Kn; change (ewt (nlp s1) = ewt (nlp st)); congruence|]]]]].
    + rewrite K10, P1, I2. destruct (S m - nef)%nat as [|q] eqn:Eq.
      * replace (S m - (nef + 1))%nat with 0%nat by lia. reflexivity.
      * replace (S m - (nef + 1))%nat with q by lia. reflexivity.
    + rewrite (rt_hh _ _ _ _ _ Hrt), Ka.
      assert (Hq : / 4 <= rr sb).
      { destruct nef as [|q].
        - destruct (rt_rr0 _ _ _ _ _ Hrt eq_refl) as (w & ->). cbn. eapply Rle_trans; [|apply Rmax_l]. lra.
        - rewrite (rt_rr1 _ _ _ _ _ Hrt) by lia. cbn. lra. }
      rewrite Nat.add_1_r. cbn [pow smul ScalarR]. assert (H4 : 0 < (/ 4) ^ nef) by (apply pow_lt; lra).
      assert (0 < (/ 4) ^ nef * hh st) by (apply Rmult_lt_0_compat; assumption).
      set (p := (/ 4) ^ nef * hh st) in *. replace (/ 4 * (/ 4) ^ nef * hh st) with (/ 4 * p) by (unfold p; ring).
      rewrite (Rmult_comm (hh sa)). apply Rmult_le_compat; lra.
    + destruct C1 as (_ & C1 & _ & _ & _ & _ & C1' & _). destruct C2 as (_ & C2 & _ & _ & _ & _ & C2' & _). split; congruence.
Qed.

Hypothesis Hx : 10 ^ 9 <= x.

Lemma big_h (h : R) nef : (nef <= 9)%nat -> (/ 4) ^ nef * (1 / 2) <= h -> 0 < h /\ 2 * (h + 1) < h * x.
Proof.
  intros Hn Hh. assert (H9 : (/ 4) ^ 9 <= (/ 4) ^ nef).
  { replace 9%nat with (nef + (9 - nef))%nat by lia. rewrite pow_add.
    assert (0 < (/ 4) ^ nef) by (apply pow_lt; lra).
    assert ((/ 4) ^ (9 - nef) <= 1). { rewrite <- (pow1 (9 - nef)). apply pow_incr. lra. } nra. }
  cbn in H9, Hx. assert (0 < h) by lra. split; [assumption|]. nra.
Qed.

(** The second step: its first attempt. *)
Lemma second_attempt : exists (st : state) s ncf nef r,
  attempt_in scalarR ewtR cf [0] [1] st 0 /\
  attempt_step scalarR st (tn (nlp st)) 0 0 = Ret (s, ncf, nef, r) /\
  (forall q, r <> Ok (Some q)) /\
  get_num_nonlin_solv_conv_fails st = 0%nat /\ length (steps (tr st)) = 1%nat.
Proof.
  destruct big_first as (st1 & Hr1 & Hn1 & Ht1 & Hl1 & Y & Hu & Hh).
  destruct (call_step sbig None 1 ltac:(lra) ltac:(discriminate) st1 Hr1 ltac:(right; split; [reflexivity|split; [lia|exact Ht1]]))
    as (st2 & t2 & r2 & sh & s & s2 & o & E2 & Bg & Es & _).
  destruct Bg as (_ & _ & _ & _ & _ & _ & _ & Pc & Li & Fr & B1 & B2 & B3 & B4 & B5).
  destruct (B5 ltac:(lia)) as (B5a & B5b & B5c).
  pose proof (reach_ord scalarR ewtR Hl cf [0] [1] st1 (configR_ok None 1) Hr1) as O1.
  pose proof (pieces_ord scalarR ewtR Hl _ _ O1 Pc) as Os.
  destruct (first_attempt scalarR _ s _ (proj1 Os) Es) as (sa & ncf & nef & r & Ea).
  exists (st_init s), sa, ncf, nef, r.
  assert (Hin : attempt_in scalarR ewtR cf [0] [1] (st_init s) 0).
  { exists st1, s. split; [exact Hr1|]. split; [exact Pc|]. split; [exact Li|]. split; [exact Fr|]. constructor. }
  assert (Hnc : get_num_nonlin_solv_conv_fails (st_init s) = 0%nat) by
    exact (attempt_ncfn scalarR ewtR Hl _ (script_never_fails scalarR sbig) big_good _ _ _ _ _ (configR_ok None 1) Hin).
  destruct (attempt_hist scalarR ewtR Hl _ _ _ _ _ (configR_ok None 1) Hin Hnc) as (Is & Js & _).
  assert (I : nst (st_init s) = 1%nat /\ hh (st_init s) = hh s /\ nls (st_init s) = nls s /\ suppressalg (st_init s) = false /\ ewt (nlp (st_init s)) = ewt (nlp s) /\ phi (st_init s) = phi s /\ hused (st_init s) = hused s).
  { unfold st_init. cbv zeta. change (nst (on_lp _ s)) with (nst s). assert (Hz : (nst s =? 0)%nat = false) by (apply Nat.eqb_neq; lia). rewrite Hz.
    split; [change (nst s = 1%nat); lia|]. split; [reflexivity|]. split; [reflexivity|]. split; [exact B3|]. auto. }
  destruct I as (I1 & I2 & I3 & I4 & I6 & I7 & I8).
  assert (Ln : length (steps (tr (st_init s))) = 1%nat) by (rewrite (tl_n _ _ _ _ (proj1 Js)); exact I1).
  split; [exact Hin|]. split; [exact Ea|]. split; [|auto].
  intros q ->. pose proof (is_arr _ Is) as Ia. pose proof (is_kk _ Is) as Ik. pose proof (is_max _ Is) as Im.
  destruct (attempt_spec scalarR Hl _ _ _ _ _ _ _ _ Ia ltac:(lia) Ea) as (s1 & ck & ek & ek1 & r1' & Et & Htr & _ & Cs).
  assert (r1' = Ok tt) by (destruct Cs as [(-> & _)|[(_ & _ & _ & _ & _ & D)|(e & _ & _ & [(_ & _ & _ & D & _)|(_ & D & _)])]]; [reflexivity|discriminate..]).
  destruct (big_h (hh (st_init s)) 0 ltac:(lia) ltac:(cbn; rewrite I2, B5b; lra)) as (Hh1 & Hh2).
  eapply (big_rejects (st_init s)); [exact Hin|exact I1|congruence|rewrite I3, B1, Hl1; reflexivity|congruence|exact I4|exact Hh1|exact Hh2|exact Et|assumption].
Qed.

(** Ten of them make the call fail. *)
Lemma big_fails : (9 <= m)%nat -> exists (st st' : state) t e, reached st /\ step_error e /\
  solve scalarR ewtR 600 100 st 1 0 OneStep = Ret (st', t, Err e) /\
  length (steps (tr st')) = 1%nat /\ get_num_nonlin_solv_conv_fails st' = 0%nat /\ (get_last_order st' <= get_current_order st')%nat.
Proof.
  intros Hm. destruct big_first as (st1 & Hr1 & Hn1 & Ht1 & Hl1 & Y & Hu & Hh).
  destruct (call_step sbig None 1 ltac:(lra) ltac:(discriminate) st1 Hr1 ltac:(right; split; [reflexivity|split; [lia|exact Ht1]]))
    as (st2 & t2 & r2 & sh & s & s2 & o & E2 & Bg & Es & Ho).
  destruct Bg as (_ & _ & _ & _ & _ & _ & _ & Pc & Li & Fr & B1 & B2 & B3 & B4 & B5).
  destruct (B5 ltac:(lia)) as (B5a & B5b & B5c).
  pose proof (reach_ord scalarR ewtR Hl cf [0] [1] st1 (configR_ok None 1) Hr1) as O1.
  pose proof (pieces_ord scalarR ewtR Hl _ _ O1 Pc) as Os.
  assert (Hr2 : reached st2) by (eapply reach_next; eassumption).
  destruct (reach_HJ scalarR ewtR Hl cf (configR_ok None 1) [0] [1] st2 Hr2) as (J2 & HL2).
  pose proof (reach_good scalarR ewtR Hl _ (script_never_fails scalarR sbig) cf (configR_ok None 1) [0] [1] big_good st2 Hr2) as (_ & N2).
  destruct (step_spec scalarR Hl _ _ _ _ Os Es) as (sta & nef & s1 & ck & ek & ek1 & r1 & Ht & Et & Htr & Hc).
  assert (I : nst (st_init s) = 1%nat /\ hh (st_init s) = hh s /\ nls (st_init s) = nls s /\ suppressalg (st_init s) = false /\ ewt (nlp (st_init s)) = ewt (nlp s) /\ hused (st_init s) = hused s /\ maxnef (st_init s) = maxnef s).
  { unfold st_init. cbv zeta. change (nst (on_lp _ s)) with (nst s). assert (Hz : (nst s =? 0)%nat = false) by (apply Nat.eqb_neq; lia). rewrite Hz.
    split; [change (nst s = 1%nat); lia|]. split; [reflexivity|]. split; [reflexivity|]. split; [exact B3|]. auto. }
  destruct I as (I1 & I2 & I3 & I4 & I6 & I8 & I9).
  pose proof (pieces_tlink scalarR ewtR Hl cf st1 s (configR_ok None 1) O1 (reach_tlink scalarR ewtR Hl cf (configR_ok None 1) [0] [1] st1 Hr1) Pc) as Ls.
  assert (Hmx : maxnef s = 10%nat) by (pose proof (tl_cfg _ _ _ _ Ls) as Q; unfold cfg_is in Q; cbn in Q; tauto).
  destruct (big_tries _ _ _ _ I1 ltac:(rewrite I3, B1; exact Hl1) ltac:(rewrite I2, B5b; lra) ltac:(congruence) Ht)
    as (T1 & T2 & T3 & T4 & T5 & T6 & T7 & T8).
  assert (Hin : attempt_in scalarR ewtR cf [0] [1] sta nef).
  { exists st1, s. auto. }
  rewrite I2, B5b in T3. assert (T3' : (/ 4) ^ nef * (1 / 2) <= hh sta).
  { eapply Rle_trans; [|exact T3]. apply Rmult_le_compat_l; [|exact Hh]. apply pow_le. lra. }
  destruct (big_h _ _ T1 T3') as (Hh1 & Hh2).
  assert (Hno : r1 <> Ok tt).
  { destruct (S m - nef)%nat as [|q] eqn:Eq; [lia|]. cbn [repeat] in T2.
    eapply (big_rejects sta); [exact Hin|exact T4|congruence|exact T2|congruence|congruence|exact Hh1|exact Hh2|exact Et]. }
  destruct Hc as [(-> & _)|(e & -> & Hg & Hc)]; [congruence|].
  assert (He : exists e', o = Err e' /\ step_error e').
  { destruct Hc as [(_ & _ & _ & -> & _)|((q & ->) & -> & _)]; eexists; (split; [reflexivity|]); [left; reflexivity|right; eauto]. }
  destruct He as (e' & -> & He'). cbv iota in Ho.
  pose proof (step_failed_shell _ _ _ _ _ _ _ Ho) as (Sf & Hr' & _). subst r2.
  destruct (step_nst scalarR Hl _ _ _ _ Os Es) as (Q3 & _). cbv iota in Q3.
  assert (Nst : nst st2 = 1%nat) by (rewrite (shell_nst _ _ _ Sf); lia).
  exists st1, st2, t2, e'. split; [exact Hr1|]. split; [exact He'|]. split; [exact E2|].
  split; [rewrite (tl_n _ _ _ _ (proj1 J2)); exact Nst|]. split; [exact N2|].
  destruct (HL2 N2) as (_ & _ & _ & Hp). destruct (Hp ltac:(left; lia)) as (b0 & b1 & _ & _ & Hh3 & _).
  destruct (h_ord _ _ _ Hh3 ltac:(lia)) as (_ & Hk). pose proof (reach_ord scalarR ewtR Hl cf [0] [1] st2 (configR_ok None 1) Hr2) as (_ & _ & _ & _ & Ok2).
  destruct (Ok2 ltac:(lia)) as (Ok3 & _). unfold get_last_order, get_current_order. lia.
Qed.
End Big.

(** Steps without corrections. *)
Section Plain.
Local Instance NLSplain : NLSolver R (script R) := ScriptNLS [].
Notation state := (ida R (list nat) (script R)).
Notation cf := (configR None 0).
Notation reached := (reach scalarR ewtR cf [0] [1]).
Notation tr st := (trace (lp (nlp st))).
Let Hl : @nls_lawful R (script R) _ := script_lawful [].

Lemma plain_ncfn (st : state) : reached st -> get_num_nonlin_solv_conv_fails st = 0%nat.
Proof.
  intros Hr. exact (proj2 (reach_good scalarR ewtR Hl _ (script_never_fails scalarR []) cf (configR_ok None 0) [0] [1] (Forall_nil _) st Hr)).
Qed.

Lemma plain_next m : exists (st st' : state) t s1 s2 fl, reached st /\ nst st = m /\
  solve scalarR ewtR 600 100 st 1 0 OneStep = Ret (st', t, Ok Success) /\ reached st' /\ nst st' = S m /\
  pieces scalarR ewtR st s1 /\ limited s1 /\ fresh scalarR ewtR s1 /\ step scalarR fl s1 = Ret (s2, Ok tt) /\ nst s1 = m /\
  (exists evs, tr st' = evs ++ tr s2 /\ Forall (fun e => is_root e || is_warn e = true)%bool evs).
Proof.
  destruct (lives [] None 0 (Rle_refl 0) ltac:(discriminate) m ltac:(left; reflexivity) eq_refl) as (st & Rd & Hn).
  destruct (one_call [] None 0 (Rle_refl 0) ltac:(discriminate) st Rd)
    as (st' & t & r & E & Hsr & Hr' & Hn' & _ & _ & _ & _ & _ & (fl & s1 & s2 & Q1 & Q2 & Q3 & Q4 & _ & Q6 & _ & _ & _ & Q5 & _) & _).
  assert (Hts : r = Success).
  { destruct Hsr as [-> | ->]; [reflexivity|]. exfalso.
    eapply (C68_no_stop_time scalarR ewtR Hl cf [0] [1]); [apply configR_ok|reflexivity|apply Rd|exact E|reflexivity]. }
  subst r. exists st, st', t, s1, s2, fl. split; [apply Rd|]. split; [exact Hn|]. split; [exact E|]. split; [exact Hr'|].
  split; [lia|]. repeat (split; [assumption|]). split; [lia|exact Q5].
Qed.

Lemma init_nst (st : state) : nst (st_init st) = nst st.
Proof. unfold st_init. cbv zeta. destruct (_ =? _)%nat; reflexivity. Qed.

(** The attempt of the third step. *)
Lemma plain_attempt : exists (st s1 : state) ck ek ek1 r,
  attempt_in scalarR ewtR cf [0] [1] st 0 /\ try_step scalarR st = Ret (s1, ck, ek, ek1, r) /\
  get_num_nonlin_solv_conv_fails st = 0%nat /\ length (steps (tr st)) = 2%nat.
Proof.
  destruct (plain_next 2) as (st & st' & t & s1 & s2 & fl & Hr & _ & _ & _ & _ & Pc & Li & Fr & Es & Hn & _).
  pose proof (reach_ord scalarR ewtR Hl cf [0] [1] st (configR_ok None 0) Hr) as O.
  pose proof (pieces_ord scalarR ewtR Hl _ _ O Pc) as Os.
  destruct (first_attempt scalarR _ s1 _ (proj1 Os) Es) as (sa & ncf & nef & r & Ea).
  assert (Hin : attempt_in scalarR ewtR cf [0] [1] (st_init s1) 0).
  { exists st, s1. split; [exact Hr|]. split; [exact Pc|]. split; [exact Li|]. split; [exact Fr|]. constructor. }
  assert (Hnc : get_num_nonlin_solv_conv_fails (st_init s1) = 0%nat) by
    exact (attempt_ncfn scalarR ewtR Hl _ (script_never_fails scalarR []) (Forall_nil _) _ _ _ _ _ (configR_ok None 0) Hin).
  destruct (attempt_hist scalarR ewtR Hl _ _ _ _ _ (configR_ok None 0) Hin Hnc) as (Is & Js & _).
  pose proof (is_arr _ Is) as Ia. pose proof (is_kk _ Is) as Ik. pose proof (is_max _ Is) as Im.
  destruct (attempt_spec scalarR Hl _ _ _ _ _ _ _ _ Ia ltac:(lia) Ea) as (x & ck & ek & ek1 & r1 & Et & _).
  exists (st_init s1), x, ck, ek, ek1, r1. split; [exact Hin|]. split; [exact Et|]. split; [exact Hnc|].
  rewrite (tl_n _ _ _ _ (proj1 Js)), init_nst. exact Hn.
Qed.

(** The first residual call of the last attempt of the second step. *)
Lemma plain_call : exists (st : state) new t y yp past s h,
  reached st /\ tr st = new ++ CRes t y yp :: past /\ last_try past = Some (s, h, 1%nat) /\ length (steps past) = 1%nat.
Proof.
  destruct (plain_next 1) as (st & st' & t & s1 & s2 & fl & Hr & _ & _ & Hr' & _ & Pc & Li & Fr & Es & Hn & (evs & Ev & _)).
  pose proof (reach_ord scalarR ewtR Hl cf [0] [1] st (configR_ok None 0) Hr) as O.
  pose proof (pieces_ord scalarR ewtR Hl _ _ O Pc) as Os.
  destruct (step_spec scalarR Hl _ _ _ _ Os Es) as (sta & nef & sx & ck & ek & ek1 & r1 & Ht & Et & Htr & Hc).
  assert (Hin : attempt_in scalarR ewtR cf [0] [1] sta nef) by (exists st, s1; auto).
  assert (Hnc : get_num_nonlin_solv_conv_fails sta = 0%nat) by
    exact (attempt_ncfn scalarR ewtR Hl _ (script_never_fails scalarR []) (Forall_nil _) _ _ _ _ _ (configR_ok None 0) Hin).
  destruct (attempt_hist scalarR ewtR Hl _ _ _ _ _ (configR_ok None 0) Hin Hnc) as (Is & Js & _ & _ & _ & (b0 & b1 & Hp)).
  destruct (script_try_trace [] scalarR _ _ _ _ _ _ Et) as (e1 & t1 & y1 & yp1 & T1).
  assert (Hn1 : nst sta = 1%nat) by (destruct (tries_start scalarR _ _ _ Os Ht) as (_ & _ & _ & _ & _ & _ & _ & _ & Q); congruence).
  assert (T2 : exists e2, tr s2 = e2 ++ tr sx).
  { destruct Hc as [(_ & _ & sb & Hd & ->)|(e & _ & _ & [(_ & _ & _ & D & _)|(_ & D & _)])]; [|discriminate..].
    pose proof (cp_nlp _ _ _ Hd) as Q. eexists [_]. rewrite <- Q. reflexivity. }
  destruct T2 as (e2 & T2).
  assert (Ln : length (steps (tr sta)) = 1%nat) by (rewrite (tl_n _ _ _ _ (proj1 Js)); exact Hn1).
  exists st', (evs ++ e2 ++ e1), t1, y1, yp1, (CTry (tn (nlp sta)) (hh sta) (kk sta) :: tr sta), (tn (nlp sta)), (hh sta).
  split; [exact Hr'|]. split; [rewrite Ev, T2, T1, !app_assoc; reflexivity|]. split; [|exact Ln].
  cbn [last_try]. pose proof (is_kk _ Is) as Ik. destruct Hp as (_ & _ & Hh & _). destruct (h_ord _ _ _ Hh ltac:(lia)) as (Hk & _).
  replace (kk sta) with 1%nat by lia. reflexivity.
Qed.

Example C20_hypotheses_met : exists (st s1 : state) ck ek ek1 r,
  @nls_lawful R (script R) _ /\ @never_fails R (list nat) (script R) _ _ _ scalarR (Forall (fun o => o <> None)) /\
  Forall (fun o => o <> None) (nls_new (model_size scalarR) MAXNLSIT : script R) /\ config_ok cf /\
  attempt_in scalarR ewtR cf [0] [1] st 0 /\ try_step scalarR st = Ret (s1, ck, ek, ek1, r) /\
  get_num_nonlin_solv_conv_fails st = 0%nat /\ length (steps (tr st)) = 2%nat.
Proof.
  destruct plain_attempt as (st & s1 & ck & ek & ek1 & r & A & B & C & D). exists st, s1, ck, ek, ek1, r.
  split; [exact Hl|]. split; [apply script_never_fails|]. split; [constructor|]. split; [apply configR_ok|]. auto.
Qed.

Example C22_predictor_hypotheses_met : exists (st s1 : state) ck ek ek1 r,
  @nls_lawful R (script R) _ /\ config_ok cf /\
  attempt_in scalarR ewtR cf [0] [1] st 0 /\ try_step scalarR st = Ret (s1, ck, ek, ek1, r) /\
  get_num_nonlin_solv_conv_fails st = 0%nat /\ length (steps (tr st)) = 2%nat.
Proof.
  destruct plain_attempt as (st & s1 & ck & ek & ek1 & r & A & B & C & D). exists st, s1, ck, ek, ek1, r.
  split; [exact Hl|]. split; [apply configR_ok|]. auto.
Qed.

(** Also of C32_raised_after_constant_steps, with the solver above. *)
Example C22_residual_calls_hypotheses_met : exists st : state,
  @nls_lawful R (script R) _ /\ config_ok cf /\ reached st /\ get_num_nonlin_solv_conv_fails st = 0%nat /\ length (steps (tr st)) = 3%nat.
Proof.
  destruct (plain_next 2) as (st & st' & t & s1 & s2 & fl & _ & _ & _ & Hr & Hn & _). exists st'.
  split; [exact Hl|]. split; [apply configR_ok|]. split; [exact Hr|]. split; [apply plain_ncfn, Hr|].
  rewrite (steps_nst [] None 0 st' Hr). exact Hn.
Qed.

Example C32_raised_hypotheses_met : exists st : state,
  @nls_lawful R (script R) _ /\ @never_fails R (list nat) (script R) _ _ _ scalarR (Forall (fun o => o <> None)) /\
  Forall (fun o => o <> None) (nls_new (model_size scalarR) MAXNLSIT : script R) /\ config_ok cf /\
  reached st /\ length (steps (tr st)) = 3%nat.
Proof.
  destruct C22_residual_calls_hypotheses_met as (st & A & B & C & _ & D). exists st.
  split; [exact Hl|]. split; [apply script_never_fails|]. split; [constructor|]. auto.
Qed.

(** The second step, of order 1. *)
Example C41_hypotheses_met : exists (st : state) new t y yp past s h,
  @nls_lawful R (script R) _ /\ config_ok cf /\ reached st /\ get_num_nonlin_solv_conv_fails st = 0%nat /\
  tr st = new ++ CRes t y yp :: past /\ last_try past = Some (s, h, 1%nat) /\
  steps past <> [] /\ (forall i a, (i + 1 < 1)%nat -> nth_error (steps past) i = Some a -> a_h a = h).
Proof.
  destruct plain_call as (st & new & t & y & yp & past & s & h & A & B & C & D). exists st, new, t, y, yp, past, s, h.
  split; [exact Hl|]. split; [apply configR_ok|]. split; [exact A|]. split; [apply plain_ncfn, A|]. split; [exact B|]. split; [exact C|].
  split; [intros Z; rewrite Z in D; discriminate|]. intros i a Hi. lia.
Qed.

Example C23_hypotheses_met : exists st : state,
  @nls_lawful R (script R) _ /\ config_ok cf /\ reached st /\ get_num_nonlin_solv_conv_fails st = 0%nat /\
  length (steps (tr st)) = 3%nat /\ tries_since (tr st) = 0%nat /\ exists s, get_solution scalarR st (get_current_time st) = Ret (s, Ok tt).
Proof.
  destruct (plain_next 2) as (st & st' & t & s1 & s2 & fl & Hr0 & _ & _ & Hr & Hn & Pc & Li & Fr & Es & Hn1 & (evs & Ev & Fe)). exists st'.
  split; [exact Hl|]. split; [apply configR_ok|]. split; [exact Hr|]. split; [apply plain_ncfn, Hr|].
  pose proof (steps_nst [] None 0 st' Hr) as Ls. split; [rewrite Ls; exact Hn|]. split.
  - pose proof (reach_ord scalarR ewtR Hl cf [0] [1] st (configR_ok None 0) Hr0) as O.
    pose proof (pieces_ord scalarR ewtR Hl _ _ O Pc) as Os.
    destruct (step_spec scalarR Hl _ _ _ _ Os Es) as (sta & nef & sx & ck & ek & ek1 & r1 & Ht & Et & Htr & Hc).
    destruct Hc as [(_ & _ & sb & Hd & ->)|(e & _ & _ & [(_ & _ & _ & D & _)|(_ & D & _)])]; [|discriminate..].
    rewrite Ev. clear Ev.
    induction Fe as [|e l He Fl IH]; [reflexivity|]. destruct e; try discriminate; exact IH.
  - destruct (steps (tr st')) as [|a rest] eqn:Ea; [cbn in Ls; lia|].
    destruct (C25_at_tn scalarR ewtR Hl cf [0] [1] st' a rest (configR_ok None 0) Hr Ea) as (_ & s & E & _). eauto.
Qed.

Example C24_hypotheses_met : exists st : state,
  @nls_lawful R (script R) _ /\ config_ok cf /\ reached st /\ length (steps (tr st)) = 3%nat /\
  exists s, get_solution scalarR st (get_current_time st) = Ret (s, Ok tt).
Proof. destruct C23_hypotheses_met as (st & A & B & C & _ & D & _ & E). exists st. auto. Qed.

Example C25_hypotheses_met : exists (st : state) a rest,
  @nls_lawful R (script R) _ /\ config_ok cf /\ reached st /\ steps (tr st) = a :: rest /\ length rest = 2%nat.
Proof.
  destruct C23_hypotheses_met as (st & A & B & C & _ & D & _). destruct (steps (tr st)) as [|a rest] eqn:Ea; [discriminate|].
  exists st, a, rest. split; [exact A|]. split; [exact B|]. split; [exact C|]. split; [exact Ea|]. cbn in D. lia.
Qed.
End Plain.

(** The error test rejects the first attempt of the second step, with room to
    retry (C21), or ten times (C69). *)
Example C21_hypotheses_met : exists (st : ida R (list nat) (script R)) s ncf nef r,
  @nls_lawful R (script R) (NLSbig (10 ^ 9) 0) /\ config_ok (configR None 1) /\
  @attempt_in (list nat) (script R) _ (NLSbig (10 ^ 9) 0) scalarR ewtR (configR None 1) [0] [1] st 0 /\
  @attempt_step R (list nat) (script R) _ _ (NLSbig (10 ^ 9) 0) scalarR st (tn (nlp st)) 0 0 = Ret (s, ncf, nef, r) /\
  (forall q, r <> Ok (Some q)) /\
  get_num_nonlin_solv_conv_fails st = 0%nat /\ steps (trace (lp (nlp st))) <> [].
Proof.
  destruct (second_attempt (10 ^ 9) 0 ltac:(lra)) as (st & s & ncf & nef & r & A & B & C & D & E).
  exists st, s, ncf, nef, r. split; [apply script_lawful|]. split; [apply configR_ok|]. repeat (split; [assumption|]).
  intros Z. rewrite Z in E. discriminate.
Qed.

Example C69_hypotheses_met : exists (st st' : ida R (list nat) (script R)) t e a rest,
  @nls_lawful R (script R) (NLSbig (10 ^ 9) 9) /\ config_ok (configR None 1) /\
  @reach R (list nat) (script R) _ _ (NLSbig (10 ^ 9) 9) scalarR ewtR (configR None 1) [0] [1] st /\ step_error e /\
  @solve R (list nat) (script R) _ _ (NLSbig (10 ^ 9) 9) scalarR ewtR 600 100 st 1 0 OneStep = Ret (st', t, Err e) /\
  steps (trace (lp (nlp st'))) = a :: rest /\ get_num_nonlin_solv_conv_fails st' = 0%nat /\
  (get_last_order st' <= get_current_order st')%nat.
Proof.
  destruct (big_fails (10 ^ 9) 9 ltac:(lra) ltac:(lia)) as (st & st' & t & e & A & B & C & D & E & F).
  destruct (steps (trace (lp (nlp st')))) as [|a rest] eqn:Ea; [discriminate|].
  exists st, st', t, e, a, rest. split; [apply script_lawful|]. split; [apply configR_ok|]. auto 7.
Qed.

Print Assumptions C20_coefficients_partial.
Print Assumptions C20_coefficients.
Print Assumptions C20_coefficients_newton.
Print Assumptions C21_rejected_attempt_undone_partial.
Print Assumptions C22_predictor_partial.
Print Assumptions C22_residual_calls_partial.
Print Assumptions C32_raised_after_constant_steps_partial.
Print Assumptions C32_raised_after_constant_steps.
Print Assumptions C32_raised_newton.
Print Assumptions C41_constant_steps_partial.
Print Assumptions C41_low_orders_partial.
Print Assumptions C23_dense_output_partial.
Print Assumptions C24_consistent_pair.
Print Assumptions C25_at_tn.
Print Assumptions C69_last_solution.
Print Assumptions C69_dense_output_partial.
