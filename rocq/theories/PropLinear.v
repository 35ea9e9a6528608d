(** * PropLinear: problems whose solution is linear in time are integrated to the
      end (C77): src/lib.rs, src/impl_solve.rs, src/impl_complete_step.rs, over the
      reals *)
Require Import List Arith Bool Lia Reals Lra.
Import ListNotations.
Require Import Verif.Base Verif.Scalar Verif.ScalarR Verif.Dense Verif.RSum Verif.DenseSpec Verif.Norms Verif.NormsR Verif.VecR
  Verif.Newton Verif.NewtonSpec Verif.IdaState Verif.IdaNls Verif.IdaCore Verif.IdaRoots Verif.IdaSolve Verif.IdaIo Verif.BaseFacts
  Verif.DenseSolveR Verif.NewtonFacts Verif.IdaFacts Verif.IdaLoops Verif.IdaStep Verif.IdaSpec Verif.IdaShell Verif.IdaReach Verif.IdaInv
  Verif.IdaCount Verif.IdaLife Verif.IdaTrace Verif.IdaAccept Verif.IdaStepR Verif.PolyR Verif.HistSpec Verif.IdaHist Verif.IdaHistLife
  Verif.IdaSafe Verif.IdaInterp Verif.IdaCall Verif.IdaCallR Verif.IdaLinear Verif.IdaExact Verif.PropSafe Verif.PropSolve Verif.PropIdaLife
  Verif.PropHist Verif.PropStepR Verif.PropReturn Verif.PropSelect Verif.PropExact Verif.IdaRow0 Verif.PropFirst.
Open Scope R_scope.

(** Divided differences of a linear function. *)
Lemma dd_lin (t y : nat -> R) a b N : distinct N t -> (forall i, (i <= N)%nat -> y i = a + b * t i) ->
  forall j i, (i + S j <= N)%nat -> dd t y i (S j) = match j with O => b | _ => 0 end.
Proof.
  intros D Hy. induction j as [|j IH]; intros i Li.
  - cbn [dd]. rewrite (Hy i), (Hy (S i)) by lia. rewrite Nat.add_1_r.
    assert (t i <> t (S i)) by (apply D; lia). field. lra.
  - remember (S j) as m. cbn [dd]. rewrite (IH i), (IH (S i)) by lia. subst m. unfold Rdiv. rewrite Rminus_diag_eq by reflexivity. ring.
Qed.

Lemma ratio_zero k : (k <= 5)%nat -> 2 <= ratio k (fun _ => 0).
Proof.
  intros Lk. unfold ratio. assert (P : 0 < INR (k + 1)) by (apply lt_0_INR; lia).
  replace (2 * (0 / INR (k + 1)) + / 10000) with (/ 10000) by (unfold Rdiv; ring).
  unfold Rpower. rewrite ln_Rinv by lra. replace (- / INR (k + 1) * - ln 10000) with (ln 10000 * / INR (k + 1)) by ring.
  rewrite <- (exp_ln 2) at 1 by lra.
  assert (ln 2 <= ln 10000 * / INR (k + 1)).
  { apply (Rmult_le_reg_r (INR (k + 1))); [exact P|]. rewrite Rmult_assoc, Rinv_l, Rmult_1_r by lra.
    assert (L2 : 0 < ln 2) by (rewrite <- ln_1; apply ln_increasing; lra).
    assert (K : INR (k + 1) <= 6).
    { replace 6 with (INR 6) by (cbn; ring). apply le_INR. lia. }
    assert (L6 : ln 64 = 6 * ln 2).
    { replace 64 with (2 ^ 6) by ring. rewrite ln_pow by lra. f_equal. cbn. ring. }
    assert (ln 64 < ln 10000) by (apply ln_increasing; lra).
    assert (ln 2 * INR (k + 1) <= ln 2 * 6) by (apply Rmult_le_compat_l; lra). lra. }
  destruct H as [Hlt|He]; [left; apply exp_increasing, Hlt|right; rewrite He; reflexivity].
Qed.

(** ** The specification *)
(** The size of the step that follows [q], [older] being the steps before [q], with
    at most order [maxord] and largest step size 1/[hi] (0: none): twice that of
    [q], limited; the first step of all is followed by one of the same size when
    the order may be raised. *)
Definition doubled (maxord : nat) (hi : R) (q : @astep R) (older : list (@astep R)) : R :=
  match older with
  | [] => if (1 <? maxord)%nat then a_h q else limit2 hi (a_h q)
  | _ => limit2 hi (a_h q)
  end.
(** The order of the step after [m] steps: 1, but 2 for the third step. *)
Definition order_after (maxord m : nat) : nat := if ((1 <? maxord) && (m =? 2))%nat then 2 else 1.
Definition growing (maxord : nat) (hi : R) (l : list (@astep R)) : Prop :=
  (forall l1 p q l2, l = l1 ++ p :: q :: l2 -> a_h p = doubled maxord hi q l2) /\
  (forall l1 p l2, l = l1 ++ p :: l2 -> a_k p = order_after maxord (length l2)).

(** The output times follow one another in the direction of [d], from [t] on. *)
Fixpoint onward (d t : R) (touts : list R) : Prop :=
  match touts with [] => True | t' :: r => 0 < (t' - t) * d /\ onward d t' r end.

Section Linear.
Context {LSt : Type} `{LSolver R LSt}.
Variable prob : problem R.
Variable ewt_set : list R -> list R.
Variable nfuel : nat.
Instance newton_pl : NLSolver R (newton R) := NewtonNLS nfuel.
Notation n := (model_size prob).
Notation state := (ida R LSt (newton R)).
Notation tr st := (trace (lp (nlp st))).
Variable okls : LSt -> Prop.
Hypothesis Hls : zero_ls n okls.
Hypothesis Hn : (1 <= n)%nat.
Variables a b : nat -> R.
Hypothesis Hsol : solves prob a b.
Variable g : @config R.
Hypothesis Hg : config_ok g.
Hypothesis Hep : 0 <= g_epcon g.
Notation sol := (affine n a b).
Notation dsol := (rates n b).
Notation lives := (@reach R LSt (newton R) _ _ (NewtonNLS nfuel) prob ewt_set g (sol (g_t0 g)) dsol).
Notation Hl := (newton_lawful nfuel).
Notation EJ := (EJ prob okls a b g).

(** One attempt: the estimates vanish. *)
Lemma lin_attempt (st st1 : state) t0 nef ck ek ek1 r : instep st -> EJ (Some (t0, nef)) st -> starts_with dsol (tr st1) ->
  try_step prob st = Ret (st1, ck, ek, ek1, r) ->
  r = Ok tt /\ tried prob st st1 ck r /\ hh st <> 0 /\ tn (nlp st1) = tn (nlp st) + hh st /\
  yy (nlp st1) = sol (tn (nlp st1)) /\
  steps (CStep (tn (nlp st1)) (yy (nlp st1)) :: tr st1) = mkastep (tn (nlp st1)) (yy (nlp st1)) (hh st) (kk st) :: steps (tr st) /\
  ek = 0 /\ ((2 <= kk st)%nat -> ek1 = 0) /\ reduced (kk st) (fun _ => 0) (knew st1) /\
  (may_raise st1 = true -> nrm_of st1 (vsub n (ee st1) (row (phi st1) (kk st + 1))) = 0).
Proof.
  intros Hi He Hs1 Et. destruct (try_facts prob Hl _ _ _ _ _ _ Hi Et) as (Htr & Hat).
  destruct (EJ_attempt prob ewt_set nfuel okls Hls Hn a b Hsol g st st1 t0 nef ck ek ek1 _ Hi He Hs1 Et Htr Hat)
    as (Hx & -> & Eee & Eyp & _).
  destruct Hx as [X1 X2 X3 X4 X5 X6]. destruct He as ((Jst & Hh0) & _).
  destruct (Hh0 X1) as (Hev & Hra & _ & Hp).
  assert (Hne : @Some (R * nat) (t0, nef) <> None) by discriminate.
  destruct (Hp (or_intror Hne)) as (b0 & b1 & Hp1). clear Hp Hh0 Hne.
  destruct (try_bdf prob ewt_set g _ st st1 t0 nef ck _ b0 b1 Hi Jst Hp1 Hev Hra Htr Hat) as (Ac & Hh & Hnx & evs & T1 & T2 & _ & T4 & _).
  destruct Hp1 as (B1 & B2 & B3 & B4 & _). rewrite (no_early _ _ _ _ X5) in B2. specialize (B2 eq_refl).
  set (hs := map apt (steps (tr st)) ++ [b0; b1]) in *.
  pose proof (tl_n _ _ _ _ (proj1 Jst)) as Ln. pose proof (h_now _ _ _ B3) as Hnow.
  split; [reflexivity|]. split; [exact Htr|]. split; [exact Hh|].
  assert (Etn : tn (nlp st1) = tn (nlp st) + hh st) by (rewrite (tr_tn _ _ _ _ _ Htr), Hnx, Hnow; reflexivity).
  split; [exact Etn|].
  pose proof (try_yy prob Hl _ _ _ _ _ _ Et ltac:(discriminate)) as Hyy.
  assert (Ely : yy (nlp st1) = sol (tn (nlp st1))).
  { rewrite Hyy, Eee, Eyp. apply vadd_zero, vtab_length. }
  split; [exact Ely|].
  split.
  { cbn [fails app] in T1. rewrite T1. destruct (calm_app evs (CTry (tn (nlp st)) (hh st) (kk st) :: tr st) T4) as (S1 & S2 & S3 & S4).
    cbn. rewrite S1, S3. reflexivity. }
  assert (On : forall x i, (x < n)%nat -> (i <= nst st)%nat -> yv hs x i = a x + b x * tm hs i).
  { intros x i Lx Li. unfold yv, tm, hs. destruct (Nat.eq_dec i (nst st)) as [->|Ne].
    - rewrite app_nth2 by (rewrite map_length; lia). rewrite map_length, Ln, Nat.sub_diag. cbn [nth].
      rewrite B1, B2. unfold IdaExact.line. rewrite vget_vtab by exact Lx. reflexivity.
    - rewrite app_nth1 by (rewrite map_length; lia).
      destruct (nth_error (steps (tr st)) i) as [p|] eqn:Ep; [|apply nth_error_None in Ep; lia].
      rewrite (nth_error_nth _ _ _ (map_nth_error apt _ _ Ep)). cbn [apt fst snd].
      pose proof (nth_error_In _ _ Ep) as Ip. apply steps_in_at in Ip. rewrite Forall_forall in X5. rewrite (X5 _ Ip).
      unfold IdaExact.line. rewrite vget_vtab by exact Lx. reflexivity. }
  assert (Dz : forall x j, (x < n)%nat -> (2 <= j <= nst st)%nat -> dd (tm hs) (yv hs x) 0 j = 0).
  { intros x j Lx Lj. destruct j as [|[|j]]; try lia.
    rewrite (dd_lin (tm hs) (yv hs x) (a x) (b x) (nst st)); [reflexivity| |intros i Li; apply On; assumption|lia].
    pose proof (hist_distinct prob hs st B3 Hh) as D. intros i k Li Lk. apply D; lia. }
  pose proof (is_kk _ Hi) as Hk. pose proof (is_max _ Hi) as Hmx.
  assert (Hkm : (2 <= kk st -> kk st <= nst st)%nat).
  { intros L. destruct (Nat.eq_dec (nst st) 0) as [Hz|Hz]; [pose proof (is_zero _ Hi Hz); lia|]. pose proof (h_ord _ _ _ B3 Hz). lia. }
  assert (Rz : forall x j, (x < n)%nat -> (2 <= j <= kk st)%nat -> vget (row (phi st1) j) x = 0).
  { intros x j Lx Lj. rewrite (ac_phi _ _ _ _ Ac j x) by lia. rewrite Dz by lia. ring. }
  pose proof (try_est prob Hl _ _ _ _ _ _ Et ltac:(discriminate)) as Hes.
  pose proof (tr_ord _ _ _ _ _ Htr) as U1. pose proof (tr_cfg _ _ _ _ _ Htr) as U2.
  apply cfg_fields in U2. destruct U2 as (_ & U4 & U5 & _ & _ & _ & _ & U6 & _).
  assert (Ek : kk st1 = kk st) by (pinj; assumption). assert (Eu : kused st1 = kused st) by (pinj; assumption). clear U1.
  unfold est_of in Hes. cbv zeta in Hes. rewrite Ek, Eee in Hes. destruct Hes as (Q1 & Q2 & Q3).
  rewrite wrms_norm_zero in Q1. assert (Q1' : ek = 0) by (rewrite Q1; cbn; ring).
  assert (V1 : (2 <= kk st)%nat -> vadd n (row (phi st1) (kk st)) (vzero n) = vzero n).
  { intros L. apply (vec_ext _ _ n); [apply length_vadd|apply repeat_length|]. intros x Lx.
    rewrite vget_vadd by exact Lx. rewrite Rz by lia. rewrite vget_vzero. cbn. ring. }
  assert (Q2' : (2 <= kk st)%nat -> ek1 = 0).
  { intros L. rewrite (Q2 L), (V1 L), wrms_norm_zero. cbn. ring. }
  split; [exact Q1'|]. split; [exact Q2'|]. split.
  - unfold reduced. cbv zeta. rewrite Q3. destruct (Nat.ltb_spec 2 (kk st)) as [L3|L3].
    + rewrite (Q2' ltac:(lia)), (V1 ltac:(lia)), Q1'.
      assert (V2 : vadd n (vzero n) (row (phi st1) (kk st - 1)) = vzero n).
      { apply (vec_ext _ _ n); [apply length_vadd|apply repeat_length|]. intros x Lx.
        rewrite vget_vadd by exact Lx. rewrite Rz by lia. rewrite vget_vzero. cbn. ring. }
      rewrite V2, wrms_norm_zero.
      change (smax (sofnat (kk st) * 0) ((sofnat (kk st) - sone) * (vget (sigma st1) (kk st - 2) * 0)) <=? 0 * (sofnat (kk st) + sone))%sc
        with (Rleb (Rmax (INR (kk st) * 0) ((INR (kk st) - 1) * (vget (sigma st1) (kk st - 2) * 0))) (0 * (INR (kk st) + 1))).
      replace (INR (kk st) * 0) with 0 by ring. replace ((INR (kk st) - 1) * (vget (sigma st1) (kk st - 2) * 0)) with 0 by ring.
      replace (0 * (INR (kk st) + 1)) with 0 by ring.
      replace (Rleb (Rmax 0 0) 0) with true by (symmetry; apply Rleb_true, Rmax_lub; lra).
      split; [reflexivity|]. intros X. exfalso. apply X. right. split; [lia|]. split; lra.
    + destruct (Nat.ltb_spec 1 (kk st)) as [L2|L2].
      * rewrite (Q2' ltac:(lia)), Q1'.
        change (sofnat (kk st) * 0 <=? 0 * (sofnat (kk st) + sone) * shalf)%sc with (Rleb (INR (kk st) * 0) (0 * (INR (kk st) + 1) * / 2)).
        replace (Rleb (INR (kk st) * 0) (0 * (INR (kk st) + 1) * / 2)) with true by (symmetry; apply Rleb_true; lra).
        split; [reflexivity|]. intros X. exfalso. apply X. left. split; [lia|lra].
      * split; [intros [(X & _)|(X & _)]; lia|reflexivity].
  - intros Hr. unfold may_raise in Hr. rewrite Ek, Eu, U6 in Hr.
    apply negb_true_iff in Hr. apply orb_false_iff in Hr. destruct Hr as (Hr & R3). apply orb_false_iff in Hr. destruct Hr as (R1 & R2).
    apply Nat.eqb_neq in R1. apply Nat.leb_gt in R2. apply Nat.eqb_neq in R3.
    destruct (tr_coeffs _ _ _ _ _ Htr) as (Kn & _). rewrite Kn in R2.
    destruct (ns_next_cases st) as [X|(E1 & E2 & E3 & E4)]; [lia|].
    destruct B4 as [X|[X|[X|((C3 & _) & _)]]]; try contradiction; [lia|].
    assert (V : vsub n (ee st1) (row (phi st1) (kk st + 1)) = vzero n).
    { apply (vec_ext _ _ n); [apply vtab_length|apply repeat_length|]. intros x Lx. rewrite vget_vsub by exact Lx.
      rewrite Eee, vget_vzero, (ac_rest _ _ _ _ Ac) by lia. rewrite (h_phi _ _ _ B3) by lia. rewrite Dz by lia. cbn. ring. }
    rewrite V. apply wrms_norm_zero.
Qed.

(** One step: no retry, and the next step size is twice this one (the first step
    of all is followed by one of the same size, when the order may be raised). *)
Lemma step_ok f (s s' : state) r : ordok s -> EJ None s -> limited s -> fresh prob ewt_set s ->
  step prob f s = Ret (s', r) -> starts_with dsol (tr s') -> r = Ok tt.
Proof.
  intros Ho He Hlim Hfr Es Hs. pose proof (step_spec prob Hl _ _ _ _ Ho Es) as Q.
  destruct Q as (sta & nef & st1 & ck & ek & ek1 & r1 & Ht & Et & Htr & Hc).
  destruct Hc as [(_ & -> & _)|(e & -> & Hgu & _)]; [reflexivity|]. exfalso.
  pose proof (EJ_begin prob ewt_set okls a b g s Ho He Hlim Hfr) as He0.
  destruct (tries_life prob Hl EJ _ _ _ _ (EJ_retry prob ewt_set nfuel okls Hls Hn a b Hsol g) (instep_init _ Ho) He0 Ht) as (I1 & I2).
  assert (Et1 : tr s' = tr st1) by (rewrite (gu_nlp _ _ _ _ Hgu); reflexivity). rewrite Et1 in Hs.
  destruct (lin_attempt _ _ _ _ _ _ _ _ I1 I2 Hs Et) as (Q & _). discriminate.
Qed.

Lemma step_grows f (s s' : state) u : ordok s -> EJ None s -> limited s -> fresh prob ewt_set s ->
  step prob f s = Ret (s', Ok u) -> starts_with dsol (tr s') ->
  let k := kk (st_init s) in
  starts_with dsol (tr s) /\ hh s <> 0 /\ tn (nlp s') = tn (nlp s) + hh s /\ hused s' = hh s /\ nst s' = S (nst s) /\
  steps (tr s') = mkastep (tn (nlp s')) (sol (tn (nlp s'))) (hh s) k :: steps (tr s) /\
  let start := phase (st_init s) = 0%nat /\ k = 1%nat /\ (1 < g_maxord g)%nat in
  ((start /\ phase s' = 0%nat /\ (nst s = 0%nat -> kk s' = 1%nat /\ hh s' = hh s) /\
      (nst s <> 0%nat -> kk s' = 2%nat /\ hh s' = limit2 (g_hmax_inv g) (hh s))) \/
   (~ start /\ phase s' <> 0%nat /\ kk s' = Nat.max 1 (k - 1) /\ hh s' = limit2 (g_hmax_inv g) (hh s))).
Proof.
  intros Ho HF Hlim Hfr Es Hs.
  destruct (step_completes prob Hl f s s' u Ho Es) as (sta & nef & st1 & ck & ek & ek1 & st2 & Ht & Et & Td0 & Ec & Ecm).
  pose proof (instep_init _ Ho) as Hi. pose proof (EJ_begin prob ewt_set okls a b g s Ho HF Hlim Hfr) as HF0.
  destruct (tries_life prob Hl EJ _ _ _ _ (EJ_retry prob ewt_set nfuel okls Hls Hn a b Hsol g) Hi HF0 Ht) as (Ia & He).
  pose proof (is_kk _ Ia) as Hk. pose proof (is_max _ Ia) as Hmx.
  pose proof (tr_res _ _ _ _ _ Td0) as (_ & _ & _ & Hkn & _).
  pose proof (maxord_tried _ _ _ _ _ Td0) as M1.
  pose proof (tr_ord _ _ _ _ _ Td0) as U1. pose proof (tr_cnt _ _ _ _ _ Td0) as U2. pose proof (tr_h _ _ _ _ _ Td0) as U3.
  assert (V : kk st1 = kk sta /\ phase st1 = phase sta /\ nst st1 = nst sta /\ hh st1 = hh sta) by (pinj; auto 10).
  clear U1 U2 U3. destruct V as (V1 & V3 & V4 & V6).
  destruct (complete_step_spec prob st1 ek ek1) as (st2' & E2 & Cp);
    [apply Td0|lia|lia|rewrite V1; exact Hkn|]. rewrite Ec in E2. apply ret_inj in E2. subst st2'.
  pose proof (cp_used _ _ _ Cp) as U1.
  assert (W : hused st2 = hh st1 /\ (nst st2 = nst st1 + 1)%nat) by (pinj; auto).
  clear U1. destruct W as (W2 & W3). pose proof (cp_nlp _ _ _ Cp) as W5.
  assert (F : hused s' = hused st2 /\ kk s' = kk st2 /\ hh s' = hh st2 /\ nst s' = nst st2 /\ phase s' = phase st2 /\
     tn (nlp s') = tn (nlp st2) /\ tr s' = CStep (tn (nlp st2)) (yy (nlp st2)) :: tr st2)
    by (rewrite Ecm; repeat split; reflexivity).
  destruct F as (G2 & G5 & G6 & G7 & G10 & G8 & G9). clear Ecm Es.
  assert (Hs1 : starts_with dsol (tr st1)).
  { rewrite G9, W5 in Hs. exact (starts_past _ [_] _ Hs). }
  assert (Hsa : starts_with dsol (tr sta)).
    { destruct (try_facts prob Hl _ _ _ _ _ _ Ia Et) as (_ & Hat).
      destruct (rl_try prob ewt_set g sta st1 _ nef ck _ Ia (proj1 (proj1 He)) Td0 Hat) as (evs & T1 & _).
      rewrite T1 in Hs1. rewrite app_assoc in Hs1. apply starts_past in Hs1. exact (starts_past _ [_] _ Hs1). }
  assert (Hsta : sta = st_init s).
  { revert Hsa. clear - ewt_set Ht Hls Hn Hsol Hi HF0 Hg. intros Hsa.
    destruct Ht as [|q nef q1 ck ek ek1 q' Ht Et Htr _ Hrt]; [reflexivity|]. exfalso.
    destruct (tries_life prob Hl EJ _ _ _ _ (EJ_retry prob ewt_set nfuel okls Hls Hn a b Hsol g) Hi HF0 Ht) as (I1 & I2).
    assert (Et1 : tr q' = tr q1) by (rewrite (rt_nlp _ _ _ _ _ Hrt); reflexivity). rewrite Et1 in Hsa.
    destruct (lin_attempt _ _ _ _ _ _ _ _ I1 I2 Hsa Et) as (Q & _). discriminate. }
  subst sta. clear Ht.
  destruct (lin_attempt _ _ _ _ _ _ _ _ Ia He Hs1 Et) as (_ & Td & Hh & Etn & Ey & Est & Hek & Hek1 & Hred & Hraise).
  destruct (init_fields s) as (F1 & F2 & F3 & F4 & F5 & F6 & F7 & F8 & F9 & F10 & F11 & F12 & F13 & F14 &
      F15 & F16 & F17 & F18 & F19 & F20).
  destruct (tl_cfg _ _ _ _ (proj1 (proj1 (proj1 He)))) as (Q1 & _ & _ & Q4 & _).
  assert (Hhi : hmax_inv st1 = g_hmax_inv g).
  { rewrite <- Q4. pose proof (cfg_fields _ _ (tr_cfg _ _ _ _ _ Td)). tauto. }
  assert (Hkr : forall kr, reduced (kk (st_init s)) (fun _ => 0) kr -> kr = Nat.max 1 (kk (st_init s) - 1)).
  { intros kr (A1 & A2). destruct (Nat.eq_dec (kk (st_init s)) 1) as [K1|K1].
    - rewrite A2; [lia|]. intros [(X & _)|(X & _)]; lia.
    - rewrite A1; [lia|]. destruct (Nat.eq_dec (kk (st_init s)) 2) as [K2|K2]; [left|right]; (split; [lia|lra]). }
  pose proof (Hkr _ Hred) as Hkn1.
  rewrite <- V1 in Hek1, Hred, Hraise.
  destruct (complete_select prob st1 st2 ek ek1 (fun _ => 0) Ec) as (P1 & P2); [lia|intros _; lra| | | |exact Hred|].
  { rewrite Hek. unfold Rdiv. ring. }
  { intros L. rewrite (Hek1 L). unfold Rdiv. ring. }
  { exact Hraise. }
  intros k. split; [rewrite F19 in Hsa; exact (starts_past _ [_] _ Hsa)|]. split; [rewrite <- F7; exact Hh|]. split; [rewrite G8, W5, Etn, F7, F14; reflexivity|].
  split; [rewrite G2, W2, V6; exact F7|]. split; [rewrite G7, W3, V4, F8; lia|].
  split; [rewrite G9, G8, W5, <- Ey, Est, F7; f_equal; rewrite F19; reflexivity|].
  cbv zeta in P1, P2. intros start. rewrite G5, G6, G10, <- Hhi, <- F8, <- F7, <- V6, <- V4. unfold start, k.
  rewrite <- V1, <- V3, <- Q1, <- M1.
  assert (Sd : ((phase st1 =? 0) && (knew st1 =? kk st1) && (kk st1 <? maxord st1))%nat = true <->
    phase st1 = 0%nat /\ kk st1 = 1%nat /\ (1 < maxord st1)%nat).
  { rewrite !andb_true_iff, !Nat.eqb_eq, Nat.ltb_lt, Hkn1, <- V1. rewrite <- V1 in Hk. lia. }
  destruct ((phase st1 =? 0) && (knew st1 =? kk st1) && (kk st1 <? maxord st1))%nat.
  - left. pose proof (proj1 Sd eq_refl) as (S1 & S2 & S3). split; [exact (conj S1 (conj S2 S3))|]. split; [apply Nat.eqb_eq; exact P1|].
    rewrite S2 in P2. exact P2.
  - right. split; [intros X; apply Sd in X; discriminate|]. split; [apply Nat.eqb_neq; exact P1|].
    destruct P2 as ((kr & S1 & S2 & S3 & S4) & Rz).
    assert (K : kk st2 = Nat.max 1 (kk st1 - 1)).
    { rewrite V1 in S1. specialize (Hkr _ S1). rewrite <- V1 in Hkr.
      destruct (Nat.eq_dec (kk st1) 1) as [K1|K1]; [|rewrite S2; lia].
      destruct (may_raise st1) eqn:Mr; [|rewrite S3; lia].
      destruct (S4 ltac:(lia) eq_refl) as (_ & _ & S5). rewrite S5; [lia|intros (X & _); lia|]. rewrite K1. cbn. lra. }
    split; [exact K|]. apply Rz. apply ratio_zero. lia.
Qed.

(** ** C77: the step sizes *)
Definition GK (st : state) : Prop :=
  growing (g_maxord g) (g_hmax_inv g) (steps (tr st)) /\
  (forall q l, steps (tr st) = q :: l ->
     hh st = doubled (g_maxord g) (g_hmax_inv g) q l /\ kk st = order_after (g_maxord g) (nst st) /\ (phase st = 0 <-> 1 < g_maxord g /\ nst st <= 2)%nat).

Lemma GK_ext (p q : state) : steps (tr q) = steps (tr p) -> nst q = nst p ->
  (nst p <> 0%nat -> hh q = hh p /\ kk q = kk p /\ phase q = phase p) -> length (steps (tr p)) = nst p -> GK p -> GK q.
Proof.
  intros E1 E2 E3 L (G1 & G2). split; rewrite E1; [exact G1|]. intros x l El. rewrite El in L. cbn in L.
  destruct (E3 ltac:(lia)) as (-> & -> & ->). rewrite E2. exact (G2 x l El).
Qed.

Lemma GK_none (st : state) : length (steps (tr st)) = 0%nat -> GK st.
Proof.
  intros L. assert (E : steps (tr st) = []) by (destruct (steps (tr st)); [reflexivity|discriminate]).
  unfold GK. rewrite E. split; [split|]; intros; try discriminate; destruct l1; discriminate.
Qed.

Hypothesis Hts : g_tstop g = None.

Lemma reach_GK (st : state) : lives st -> starts_with dsol (tr st) -> GK st.
Proof.
  intros Hr. pose proof (reach_pieces prob ewt_set g _ _ st Hr) as (st0 & E0 & P).
  cut (ordok st /\ EJ None st /\ (starts_with dsol (tr st) -> GK st)); [tauto|].
  refine (pieces_inv prob ewt_set (fun st => ordok st /\ EJ None st /\ (starts_with dsol (tr st) -> GK st)) _ _ _ P _).
  - intros p q (O & E & G) Pq.
    assert (O' : ordok q) by exact (piece_ord prob ewt_set Hl _ _ O Pq).
    assert (E' : EJ None q).
    { assert (Q : pieces prob ewt_set p q) by (apply piece1; exact Pq).
      refine (proj2 (pieces_life prob ewt_set Hl EJ p q (EJ_shell prob okls a b g) (EJ_lims prob okls a b g)
        (EJ_first prob ewt_set okls a b g Hep) _ Q O E)).
      split; [apply EJ_begin|]. split; [apply (EJ_retry prob ewt_set nfuel okls Hls Hn a b Hsol g)|].
      split; [apply (EJ_commit prob ewt_set nfuel okls Hls Hn a b Hsol g)|apply (EJ_giveup prob ewt_set nfuel okls Hls Hn a b Hsol g)]. }
    split; [exact O'|]. split; [exact E'|]. intros Hs.
    pose proof (tl_n _ _ _ _ (proj1 (proj1 (proj1 E)))) as Ln.
    pose proof (tl_tstop _ _ _ _ (proj1 (proj1 (proj1 E)))) as Ts. rewrite Hts in Ts.
    destruct Pq as [p q S|p q Hz L|p q tout m Hz F|p q tout Hz F|fuel p q r Hlim Hfr Es].
    + destruct (sh_trace _ _ _ S) as (evs & T1 & T2 & _). pose proof (core_fields _ _ (sh_core _ _ _ S)) as C.
      destruct (quiet_steps prob g (sol (g_t0 g)) evs (tr p) T2) as (Q1 & _).
      apply (GK_ext p); [rewrite T1; exact Q1|tauto|intros _; tauto|exact Ln|]. apply G. rewrite T1 in Hs. exact (starts_past _ _ _ Hs).
    + destruct L as [(_ & ->)|(ts & Q & _)]; [exact (G Hs)|]. destruct Ts; congruence.
    + apply GK_none. rewrite (tl_n _ _ _ _ (proj1 (proj1 (proj1 E')))). apply first_call_frame in F. cbv zeta in F.
      destruct F as (F1 & _). unfold fkeep in F1. cbv zeta in F1. congruence.
    + apply GK_none. rewrite (tl_n _ _ _ _ (proj1 (proj1 (proj1 E')))). apply first_call_frame in F. cbv zeta in F.
      destruct F as (F1 & _). unfold fkeep in F1. cbv zeta in F1. congruence.
    + pose proof (step_ok _ _ _ _ O E Hlim Hfr Es Hs) as ->.
      destruct (step_grows _ _ _ _ O E Hlim Hfr Es Hs) as (Hsp & S1 & S2 & S3 & S4 & S5 & S6).
      destruct (G Hsp) as ((G1 & G2) & G3). clear G Hsp.
      assert (I0 : nst p = 0%nat -> kk (st_init p) = 1%nat /\ phase (st_init p) = 0%nat).
      { intros Z. unfold st_init; cbv zeta; change (nst (on_lp (push_ev (begin_ev p)) p)) with (nst p). rewrite Z. split; reflexivity. }
      assert (I1 : nst p <> 0%nat -> kk (st_init p) = kk p /\ phase (st_init p) = phase p).
      { intros Z. apply Nat.eqb_neq in Z. unfold st_init; cbv zeta; change (nst (on_lp (push_ev (begin_ev p)) p)) with (nst p). rewrite Z. split; reflexivity. }
      assert (Ek : kk (st_init p) = order_after (g_maxord g) (nst p)).
      { destruct (Nat.eq_dec (nst p) 0) as [Z|Z].
        - rewrite (proj1 (I0 Z)), Z. unfold order_after. rewrite andb_false_r. reflexivity.
        - rewrite (proj1 (I1 Z)). destruct (steps (tr p)) as [|x l]; [cbn in Ln; congruence|]. apply (G3 x l eq_refl). }
      assert (Eph : phase (st_init p) = 0%nat <-> nst p = 0%nat \/ (1 < g_maxord g /\ nst p <= 2)%nat).
      { destruct (Nat.eq_dec (nst p) 0) as [Z|Z].
        - rewrite (proj2 (I0 Z)). tauto.
        - rewrite (proj2 (I1 Z)). destruct (steps (tr p)) as [|x l]; [cbn in Ln; congruence|].
          destruct (G3 x l eq_refl) as (_ & _ & Q). rewrite Q. tauto. }
      split; [split|].
      * intros l1 x y l2 El. rewrite S5 in El. destruct l1 as [|z l1]; cbn in El.
        -- injection El as <- El. cbn. exact (proj1 (G3 y l2 El)).
        -- injection El as _ El. exact (G1 l1 x y l2 El).
      * intros l1 x l2 El. rewrite S5 in El. destruct l1 as [|z l1]; cbn in El.
        -- injection El as <- <-. cbn. rewrite Ln. exact Ek.
        -- injection El as _ El. exact (G2 l1 x l2 El).
      * intros x l El. rewrite S5 in El. injection El as <- <-. rewrite S4. cbn [a_h]. clear S5.
        assert (Go : doubled (g_maxord g) (g_hmax_inv g) (mkastep (tn (nlp q)) (sol (tn (nlp q))) (hh p) (kk (st_init p))) (steps (tr p)) =
          if ((nst p =? 0) && (1 <? g_maxord g))%nat then hh p else limit2 (g_hmax_inv g) (hh p)).
        { unfold doubled. cbn [a_h]. rewrite <- Ln. destruct (steps (tr p)); cbn [length Nat.eqb andb]; [|reflexivity]. reflexivity. }
        rewrite Go. clear Go G3 I0 I1. unfold order_after in *. set (h2 := limit2 (g_hmax_inv g) (hh p)) in *.
        pose proof Hg as Hm. unfold config_ok in Hm.
        destruct (Nat.ltb_spec 1 (g_maxord g)) as [Lm|Lm]; cbn [andb] in *.
        -- destruct (Nat.eqb_spec (nst p) 0) as [Z|Z]; cbn [andb].
           ++ rewrite Z in *. cbn in Ek |- *. destruct S6 as [(_ & P1 & P2 & _)|(Q & _)]; [|exfalso; apply Q; tauto].
              destruct (P2 eq_refl) as (-> & ->). split; [reflexivity|]. split; [reflexivity|]. split; [intros _; lia|intros _; exact P1].
           ++ destruct S6 as [((Q1 & Q2 & _) & P1 & _ & P2)|(Q & P1 & P2 & P3)].
              ** destruct (P2 Z) as (-> & ->). split; [reflexivity|]. apply Eph in Q1.
                 assert (nst p = 1%nat).
                 { destruct (Nat.eqb_spec (nst p) 2); [rewrite Ek in Q2; discriminate|lia]. }
                 replace (nst p) with 1%nat by lia. cbn. split; [reflexivity|]. split; [intros _; lia|intros _; exact P1].
              ** rewrite P2, P3. split; [reflexivity|].
                 assert (nst p <> 1%nat).
                 { intros Z1. apply Q. split; [apply Eph; right; lia|]. split; [rewrite Ek, Z1; reflexivity|exact Lm]. }
                 replace (S (nst p) =? 2)%nat with false by (symmetry; apply Nat.eqb_neq; lia).
                 split; [rewrite Ek; destruct (nst p =? 2)%nat; reflexivity|]. split; [intros X; contradiction|intros X; lia].
        -- rewrite andb_false_r. destruct S6 as [((_ & _ & Q) & _)|(_ & P1 & P2 & P3)]; [lia|]. rewrite P2, P3, Ek.
           split; [reflexivity|]. split; [reflexivity|]. split; [intros X; contradiction|intros X; lia].
  - split; [exact (new_ord prob g _ _ st0 Hg E0)|]. split; [exact (EJ_new prob nfuel okls Hls a b g st0 E0)|].
    pose proof (new_fields prob _ _ _ E0) as F. assert (T0 : tr (configure g st0) = []) by (change (tr st0 = []); tauto).
    intros _. unfold GK. rewrite T0. split; [split|]; intros; try discriminate.
    + destruct l1; discriminate.
    + destruct l1; discriminate.
Qed.

(** The accepted steps of a life without a stop time, in which the first residual
    evaluation got the initial derivative. *)
Theorem C77_step_sizes (st : state) : lives st -> starts_with dsol (tr st) ->
  growing (g_maxord g) (g_hmax_inv g) (steps (tr st)).
Proof. intros Hr Hs. exact (proj1 (reach_GK st Hr Hs)). Qed.

(** ** C77: the run to the output time *)
Hypothesis Hjac : sets_up prob okls a b.
Hypothesis Hfuel : (1 <= nfuel)%nat.
Hypothesis Hnr : num_roots prob = 0%nat.
Hypothesis Hhm : g_hmax_inv g = 0.
Notation FJ := (FJ prob okls a b g).

Lemma FJ_tlink (s : state) : FJ None s -> tlink prob g None s.
Proof. intros F. exact (proj1 (proj1 (proj1 (proj1 F)))). Qed.

Lemma FJ_plain (s : state) : FJ None s -> tstop s = None /\ nrtfn s = 0%nat /\ mxstep s = g_mxstep g /\ idv s = g_idv g /\ suppressalg s = g_suppressalg g.
Proof.
  intros F. pose proof (FJ_tlink _ F) as L. pose proof (tl_tstop _ _ _ _ L) as T. rewrite Hts in T.
  destruct (tl_cfg _ _ _ _ L) as (_ & _ & C3 & _ & _ & _ & C7 & C8 & _ & _ & C11 & _). rewrite Hnr in C11. tauto.
Qed.

Lemma limit2_0 h : limit2 0 h = 2 * h.
Proof. unfold limit2. rewrite Rmult_0_r. destruct (Rlt_dec 1 0); [lra|reflexivity]. Qed.

(** The first row is the solution at the time reached. *)
Lemma FJ_row0 (st s : state) : lives st -> pieces prob ewt_set st s -> FJ None s -> row (phi s) 0 = sol (tn (nlp s)).
Proof.
  intros Hr P F. pose proof (FJ_tlink _ F) as L. pose proof (tl_tn _ _ _ _ L) as Tn. unfold now in Tn.
  destruct F as (((Js & Hk) & He) & Hs & _ & _). destruct (He Hs) as (X & _).
  destruct (steps (tr s)) as [|p l] eqn:El.
  - specialize (Hk (ex_ncfn _ _ _ _ _ X)). destruct Hk as (_ & _ & K & _). rewrite Tn. apply K.
    + rewrite <- (tl_n _ _ _ _ L), El. reflexivity.
    + exact (no_early prob a b _ (ex_tr _ _ _ _ _ X)).
  - pose proof (reach_ord prob ewt_set Hl g _ _ st Hg Hr) as O.
    assert (R0 : RJ prob g None st).
    { split; [exact (reach_J prob ewt_set Hl g Hg _ _ st Hr)|exact (reach_row0 prob ewt_set Hl g Hg _ _ st Hr)]. }
    destruct (pieces_RJ prob ewt_set Hl g [] _ _ P O R0) as (_ & _ & Q). rewrite (Q _ _ El), Tn.
    pose proof (ex_tr _ _ _ _ _ X) as Ft.
    assert (G : In p (steps (tr s))) by (rewrite El; left; reflexivity).
    apply steps_in_at in G. rewrite Forall_forall in Ft. exact (Ft _ G).
Qed.

Definition grew (s0 s : state) (nl : nat) : Prop :=
  nst s = (nst s0 + nl)%nat /\ exists c d, tn (nlp s) = tn (nlp s0) + c * hh s0 /\ hh s = d * hh s0 /\
    (nl = 0%nat -> c = 0 /\ d = 1) /\ (nl <> 0%nat -> 2 ^ (nl - 1) <= c /\ 2 ^ (nl - 1) <= d).

Lemma pass_grows rfuel (st s0 s s1 s2 : state) tout tret nl u : ordok st -> head prob ewt_set tout Normal st s -> FJ None s ->
  pre_step prob ewt_set s tret nl = Ret (inr s1) -> step prob rfuel s1 = Ret (s2, Ok u) -> grew s0 s nl ->
  grew s0 s2 (nl + 1) /\ tn (nlp s2) = tn (nlp s) + hh s /\ hused s2 = hh s /\ hh s <> 0 /\ (hh s2 = hh s \/ hh s2 = 2 * hh s).
Proof.
  intros O Hd F Ep Es (G1 & c & d & G2 & G3 & G4 & G5).
  destruct (passed prob ewt_set nfuel okls a b g _ _ _ _ _ _ _ O Hd F Ep) as (O1 & F1 & L1 & R1 & P1).
  destruct (stepped prob ewt_set nfuel okls Hls Hn a b Hsol g Hfuel _ _ _ _ _ _ _ _ _ _ O Hd F Ep Es) as (O2 & F2 & _).
  apply pre_step_shell in Ep. destruct Ep as (S1 & _).
  pose proof (core_fields _ _ (sh_core _ _ _ S1)) as C.
  assert (C1 : hh s1 = hh s) by tauto. assert (C2 : nst s1 = nst s) by tauto. assert (C3 : tn (nlp s1) = tn (nlp s)) by tauto. clear C.
  destruct (step_grows _ _ _ _ O1 (proj1 F1) L1 R1 Es (proj1 (proj2 F2))) as (_ & Q1 & Q2 & Q3 & Q4 & _ & Q5).
  rewrite C1, C2, C3, Hhm, ?limit2_0 in *.
  assert (Q : (hh s2 = hh s /\ nst s = 0%nat) \/ hh s2 = 2 * hh s).
  { destruct Q5 as [(_ & _ & A1 & A2)|(_ & _ & _ & A3)]; [|right; exact A3].
    destruct (Nat.eq_dec (nst s) 0) as [Z|Z]; [left; split; [apply (A1 Z)|exact Z]|right; apply (A2 Z)]. }
  split; [|split; [exact Q2|split; [exact Q3|split; [exact Q1|tauto]]]].
  split; [lia|]. exists (c + d), (match nst s with O => hh s2 / hh s0 | _ => 2 * d end).
  replace (nl + 1 - 1)%nat with nl by lia.
  assert (N0 : hh s0 <> 0) by (intros Z; apply Q1; rewrite G3, Z; ring).
  split; [rewrite Q2, G2, G3; ring|]. split; [|split; [lia|intros _]].
  - destruct (nst s) eqn:Z; [field; exact N0|]. destruct Q as [(_ & Q)|Q]; [discriminate|]. rewrite Q, G3. ring.
  - destruct (Nat.eq_dec nl 0) as [Z|Z].
    + destruct (G4 Z) as (Gc & Gd). rewrite Gc, Gd in *. subst nl. cbn. split; [lra|]. destruct (nst s); [|lra].
      assert (Z0 : hh s = hh s0) by (rewrite G3; ring). destruct Q as [(-> & _)| ->]; rewrite Z0.
      * apply Req_le. field. exact N0.
      * apply Rle_trans with 2; [lra|]. apply Req_le. field. exact N0.
    + destruct (G5 Z) as (G6 & G7). replace nl with (S (nl - 1)) by lia. cbn [pow]. split; [lra|].
      destruct (nst s) eqn:Zs; [lia|lra].
Qed.

Lemma loops_grow rfuel (st s0 s : state) tout tret nl : ordok st -> FJ None s0 -> head prob ewt_set tout Normal st s0 ->
  loops prob ewt_set rfuel tout Normal tret s0 s nl -> grew s0 s nl.
Proof.
  intros O F Hd L. induction L as [|s nl s1 s2 u s' L IH Ep Es Eq].
  - split; [lia|]. exists 0, 1. split; [ring|]. split; [ring|]. split; [auto|lia].
  - destruct (head_loop _ _ _ _ _ _ _ _ _ _ Hd L) as (Hd2 & _).
    pose proof (loops_FJ prob ewt_set nfuel okls Hls Hn a b Hsol g Hfuel _ _ _ _ _ _ _ _ O F Hd L) as Fs.
    destruct (stepped prob ewt_set nfuel okls Hls Hn a b Hsol g Hfuel _ _ _ _ _ _ _ _ _ _ O Hd2 Fs Ep Es) as (O2 & F2 & _).
    destruct (FJ_plain _ F2) as (T2 & R2 & _).
    enough (s' = s2) as -> by exact (proj1 (pass_grows _ _ _ _ _ _ _ _ _ _ O Hd2 Fs Ep Es IH)).
    destruct (post_step_cases _ _ _ _ _ _ _ _ _ Eq) as [(Q & _)|(x & _ & _ & Q & E2)]; [contradiction|].
    rewrite (Q R2) in E2. unfold stop_test2 in E2. destruct (sleb _ _).
    + apply bind_ret_inv in E2 as ((y & z) & _ & E2). discriminate.
    + unfold stop2_tstop in E2. rewrite T2 in E2. cbn [bind] in E2. congruence.
Qed.

(** The weights can be used everywhere on the solution. *)
Definition usable : Prop := forall t,
  Forall (fun x => 0 < x) (ewt_set (sol t)) /\ eps * wrms_norm (g_idv g) (sol t) (ewt_set (sol t)) (g_suppressalg g) <= 1.
Hypothesis Hw : usable.

Lemma run_ends rfuel (st s0 s st' : state) tout tret nl m t r : lives st -> FJ None s0 -> head prob ewt_set tout Normal st s0 ->
  (nst s0 = 0%nat -> ewt (nlp s0) = ewt_set (sol (g_t0 g))) ->
  (0 < g_mxstep g)%nat -> Rabs (tout - tn (nlp s0)) <= 2 ^ (g_mxstep g - 1) * Rabs (hh s0) -> (1 <= rfuel)%nat ->
  loops prob ewt_set rfuel tout Normal tret s0 s nl -> ends prob ewt_set rfuel tout Normal tret s nl m st' t r ->
  r = Ok Success /\ t = tout /\ tretlast st' = tout /\ nst st' <> 0%nat /\
  0 < (tout - (tn (nlp st') - hused st')) * hh st' /\ 0 <= (tn (nlp st') - tout) * hh st' /\
  exists c d, 0 <= c /\ 1 <= d /\ tn (nlp st') = tn (nlp s0) + c * hh s0 /\ hh st' = d * hh s0.
Proof.
  intros Hr F0 Hd0 Hw0 Hmx Hb Hrf L E.
  pose proof (reach_ord prob ewt_set Hl g _ _ st Hg Hr) as O. pose proof (reach_J prob ewt_set Hl g Hg _ _ st Hr) as Js.
  pose proof (reach_wf prob ewt_set Hl (fun _ _ => True) (any_preserved prob (fun _ _ => True) (fun _ _ => I)) g _ _ st Hg I Hr) as W.
  pose proof (loops_grow _ _ _ _ _ _ _ O F0 Hd0 L) as Gr.
  pose proof (loops_FJ prob ewt_set nfuel okls Hls Hn a b Hsol g Hfuel _ _ _ _ _ _ _ _ O F0 Hd0 L) as F.
  destruct (head_loop _ _ _ _ _ _ _ _ _ _ Hd0 L) as (Hd & _).
  pose proof (head_tout prob ewt_set Hl g st s tout O Js Hd) as Ht.
  destruct (FJ_plain _ F) as (T1 & R1 & M1 & I1 & S1).
  pose proof (FJ_row0 st s Hr (hd_pieces _ _ _ _ _ _ Hd) F) as Row.
  assert (Wn : next_w ewt_set s = ewt_set (sol (tn (nlp s)))).
  { unfold next_w. rewrite Row. destruct (Nat.eqb_spec (nst s) 0) as [Z|Z]; [|reflexivity].
    destruct Gr as (G1 & _). assert (nl = 0%nat) by lia. assert (Z0 : nst s0 = 0%nat) by lia. subst nl.
    assert (s = s0) as -> by (inversion L; [reflexivity|lia]).
    rewrite (Hw0 Z0). do 2 f_equal. pose proof (FJ_tlink _ F) as Lk. rewrite (tl_tn _ _ _ _ Lk). unfold now.
    pose proof (tl_n _ _ _ _ Lk) as Ln. destruct (steps (tr s0)); [reflexivity|cbn in Ln; lia]. }
  destruct (Hw (tn (nlp s))) as (W1 & W2).
  assert (Pre : forall x, pre_step prob ewt_set s tret nl = Ret x -> exists s1, x = inr s1).
  { intros x Ex. destruct (pre_step_cases _ _ _ _ _ _ Ex) as [(Q & _)|(Q & [(Z & Q1 & _)|(_ & [(Q1 & _)|(_ & s1 & _ & _ & ->)])])]; [exfalso..|exists s1; reflexivity].
    - rewrite M1 in Q. destruct Gr as (_ & c & d & G2 & G3 & _ & G5). destruct (G5 ltac:(lia)) as (G6 & G7). rewrite G2, G3 in Ht.
      assert (P1 : 2 ^ (g_mxstep g - 1) <= 2 ^ (nl - 1)) by (apply Rle_pow; [lra|lia]).
      assert (P2 : 0 < 2 ^ (nl - 1)) by (apply pow_lt; lra).
      set (h := hh s0) in *. set (e := tout - tn (nlp s0)) in *. replace (tout - (tn (nlp s0) + c * h)) with (e - c * h) in Ht by (unfold e; ring).
      assert (Q3 : e * h <= Rabs e * Rabs h) by (rewrite <- Rabs_mult; apply Rle_abs).
      assert (Q4 : Rabs h * Rabs h = h * h) by (rewrite <- Rabs_mult; apply Rabs_right; nra).
      pose proof (Rabs_pos h). assert (Q5 : 0 <= h * h) by nra.
      assert (Rabs e * Rabs h <= 2 ^ (g_mxstep g - 1) * (h * h)) by (rewrite <- Q4; nra).
      assert ((e - c * h) * h <= 0) by nra. nra.
    - rewrite Wn in Q1. apply existsb_exists in Q1. destruct Q1 as (x0 & Ix & Q1). rewrite Forall_forall in W1. specialize (W1 x0 Ix).
      apply Rleb_true in Q1. cbn in Q1. lra.
    - unfold next_norm in Q1. rewrite Wn, Row, I1, S1 in Q1. apply Rltb_true in Q1. exact (Rlt_irrefl _ (Rlt_le_trans _ _ _ Q1 W2)). }
  destruct E as [st' t r Ep|s1 s2 e st' t r Ep Es Ef|s1 s2 u st' t r Ep Es Ef Hne].
  - destruct (Pre _ Ep) as (? & ?). discriminate.
  - exfalso. destruct (passed prob ewt_set nfuel okls a b g _ _ _ _ _ _ _ O Hd F Ep) as (O1 & F1 & L1 & Fr1 & P1).
    pose proof (wf_cs _ _ _ (inside_wf prob ewt_set Hl st W s1 P1)) as Hcs.
    destruct (step_returns prob ewt_set nfuel okls Hls Hn a b Hsol g Hfuel Hjac s1 O1 F1 L1 Fr1 Hcs) as (x & u & Q).
    specialize (Q rfuel Hrf). pose proof (eq_trans (eq_sym Q) Es) as Y. discriminate.
  - destruct (stepped prob ewt_set nfuel okls Hls Hn a b Hsol g Hfuel _ _ _ _ _ _ _ _ _ _ O Hd F Ep Es) as (O2 & F2 & [N2|(e & Q)]); [|discriminate].
    destruct (pass_grows _ _ _ _ _ _ _ _ _ _ O Hd F Ep Es Gr) as ((_ & c & d & G2 & G3 & _ & G5) & G6 & G7 & G8 & G9).
    destruct (G5 ltac:(lia)) as (G10 & G11). replace (nl + 1 - 1)%nat with nl in * by lia.
    assert (P1 : 1 <= 2 ^ nl) by (apply pow_R1_Rle; lra).
    destruct (FJ_plain _ F2) as (T2 & R2 & _).
    destruct (post_step_cases _ _ _ _ _ _ _ _ _ Ef) as [(Q & _)|(x & _ & _ & Q & E2)]; [contradiction|].
    rewrite (Q R2) in E2. clear Q x. unfold stop_test2 in E2. destruct (sleb _ _) eqn:El.
    + apply bind_ret_inv in E2 as ((y & z) & Eg & E2). apply ret_inj in E2. injection E2 as <- <- <-.
      pose proof (gs_tn _ _ _ _ _ Eg) as (A1 & A2 & _). apply get_solution_shell in Eg.
      pose proof (core_fields _ _ (sh_core _ _ _ Eg)) as C.
      assert (C1 : hh y = hh s2) by (change (hh s2) with (hh (set_tretlast tout s2)); tauto).
      assert (C2 : nst y = nst s2) by (change (nst s2) with (nst (set_tretlast tout s2)); tauto).
      assert (C3 : hused y = hused s2) by (change (hused s2) with (hused (set_tretlast tout s2)); tauto).
      assert (A1' : tn (nlp y) = tn (nlp s2)) by exact A1. clear C A1.
      apply Rleb_true in El. cbn in El. rewrite C1, C2, C3, A1'.
      split; [reflexivity|]. split; [reflexivity|]. split; [exact A2|]. split; [exact N2|].
      split; [rewrite G6, G7; replace (tn (nlp s) + hh s - hh s) with (tn (nlp s)) by ring; destruct G9 as [->| ->]; lra|].
      split; [exact El|]. exists c, d. split; [lra|]. split; [lra|]. split; [exact G2|exact G3].
    + unfold stop2_tstop in E2. rewrite T2 in E2. cbn [bind] in E2. congruence.
Qed.

(** The state between the calls of a run: the last output time lies in the last
    step; [h0] is the first step size and [T] the farthest output time. *)
Record between (h0 dmax : R) (st : state) (tlast : R) : Prop := mkbetween {
  bw_lives : lives st;
  bw_first : first_res dsol (tr st);
  bw_nst : nst st <> 0%nat;
  bw_ret : tretlast st = tlast;
  bw_in : 0 < (tlast - (tn (nlp st) - hused st)) * hh st;
  bw_reached : 0 <= (tn (nlp st) - tlast) * hh st;
  bw_grown : exists c d, 0 <= c /\ 1 <= d /\ tn (nlp st) = g_t0 g + c * h0 /\ hh st = d * h0;
  bw_far : dmax <= 2 ^ (g_mxstep g - 1) * Rabs h0 }.

Lemma life_ok (st : state) : lives st -> first_res dsol (tr st) -> nst st <> 0%nat ->
  arrays st /\ (kused st <= 5)%nat /\ 0 < hh st * hused st /\ nrtfn st = 0%nat /\ tstop st = None.
Proof.
  intros Hr F Hz. destruct (reach_ord prob ewt_set Hl g _ _ st Hg Hr) as (A & M & K & U & _).
  pose proof (reach_J prob ewt_set Hl g Hg _ _ st Hr) as (Lk & Rl). pose proof (tl_n _ _ _ _ Lk) as Ln.
  pose proof (tl_tstop _ _ _ _ Lk) as T. rewrite Hts in T.
  destruct (tl_cfg _ _ _ _ Lk) as (_ & _ & _ & _ & _ & _ & _ & _ & _ & _ & C11 & _). rewrite Hnr in C11.
  destruct (steps (tr st)) as [|x l] eqn:El; [cbn in Ln; congruence|].
  pose proof (rl_sign _ _ _ Rl) as S. rewrite El in S. apply Forall_cons_iff in S. destruct S as (S & _).
  destruct (tl_used _ _ _ _ Lk _ _ El) as (_ & ->). split; [exact A|]. split; [lia|]. tauto.
Qed.

(** The first call. *)
Lemma first_output (st0 : state) fuel tout tret dmax :
  @ida_new R LSt (newton R) _ _ newton_pl prob (sol (g_t0 g)) dsol = Ret st0 ->
  far (g_t0 g) tout -> towards (g_hin g) (g_t0 g) tout -> (0 < g_mxstep g < fuel)%nat ->
  let h0 := first_size (g_hin g) 0 (g_t0 g) tout
    (wrms_norm (g_idv g) dsol (ewt_set (sol (g_t0 g))) (g_suppressalg g)) in
  Rabs (tout - g_t0 g) <= dmax -> dmax <= 2 ^ (g_mxstep g - 1) * Rabs h0 ->
  exists N st', (forall rfuel, (N <= rfuel)%nat ->
      solve prob ewt_set fuel rfuel (configure g st0) tout tret Normal = Ret (st', tout, Ok Success)) /\
    get_yy st' = sol tout /\ get_yp st' = dsol /\ between h0 dmax st' tout /\ 0 < (tout - g_t0 g) * h0.
Proof.
  intros En Hf Htw Hmx h0 Hd1 Hd2. set (st := configure g st0).
  assert (Hr : lives st) by (constructor; exact En).
  destruct (C76_linear_never_fails prob ewt_set nfuel okls Hls Hn a b Hsol g Hg Hep Hjac Hfuel st fuel tout tret Normal Hr
    (or_introl (ex_intro _ st0 (conj En eq_refl))) Hmx) as (N & st' & t & r & E & _ & Hs & Hfr).
  pose proof (new_fields prob _ _ _ En) as Nf.
  assert (Ph : phi st0 = sol (g_t0 g) :: dsol :: repeat (vzero n) 4) by tauto.
  assert (Hz : nst st = 0%nat) by (change (nst st0 = 0%nat); tauto).
  assert (Sd : setup_done st0 = false) by (clear -En; unfold ida_new in En; minv; reflexivity).
  set (q := task_set st tout Normal).
  assert (A : tn (nlp q) = g_t0 g /\ hmax_inv q = g_hmax_inv g /\ hin q = g_hin g /\ phi q = phi st0 /\ idv q = g_idv g /\
    suppressalg q = g_suppressalg g /\ tstop q = g_tstop g /\ setup_done q = setup_done st0) by (repeat split).
  destruct A as (A1 & A2 & A3 & A4 & A5 & A6 & A7 & A8).
  assert (A9 : nst q = 0%nat) by (rewrite <- Hz; exact (shell_nst _ _ _ (task_set_shell prob st tout Normal))).
  assert (F : forall x, first_call prob ewt_set q tout = Ret x ->
    exists s, x = inr s /\ hh s = h0 /\ tn (nlp s) = g_t0 g /\ ewt (nlp s) = ewt_set (sol (g_t0 g)) /\ 0 < (tout - g_t0 g) * h0).
  { intros x Ex. assert (Hp : nth_error (phi q) 1 = Some dsol) by (rewrite A4, Ph; reflexivity).
    pose proof (first_call_size prob ewt_set q tout x dsol (eq_trans A7 Hts) Hp Ex) as Q. cbv zeta in Q.
    rewrite A1, A2, A3, A4, A5, A6, A8, Sd, Ph, Hhm in Q.
    destruct Q as [(_ & _ & s & -> & Q)|[(Q & _)|(_ & Q & _)]]; [|contradiction..].
    exists s. split; [reflexivity|]. split; [exact Q|]. pose proof (first_call_R _ _ _ _ _ Ex) as (_ & P & _). rewrite Q, A1 in P.
    apply first_call_frame in Ex. cbv zeta in Ex. destruct Ex as (Fk & _ & Fe & _). rewrite A8, Sd, A4, Ph in Fe. cbn [row nth] in Fe.
    split; [|split; [exact Fe|exact P]]. unfold fkeep in Fk. assert (X : tn (nlp s) = tn (nlp q)) by congruence. rewrite X. exact A1. }
  pose proof (E (Nat.max N 1) ltac:(lia)) as E1.
  assert (Hr' : lives st') by (eapply reach_next; eassumption).
  pose proof (reach_ord prob ewt_set Hl g _ _ st Hg Hr) as O.
  destruct (solve_run _ _ _ _ _ _ _ _ _ _ _ E1) as [Q|(s0 & s & nl & m & En0 & L & Ends)].
  { exfalso. unfold answers in Q. fold q in Q.
    destruct (solve_start_cases _ _ _ _ _ _ _ _ Q) as [(_ & s1 & m1 & E2 & _)|[(_ & s1 & l & _ & _ & _ & _ & Q1)|(Q1 & _)]]; [|discriminate|congruence].
    destruct (F _ E2) as (s2 & Q2 & _). discriminate. }
  assert (S0 : hh s0 = h0 /\ tn (nlp s0) = g_t0 g /\ ewt (nlp s0) = ewt_set (sol (g_t0 g)) /\ 0 < (tout - g_t0 g) * h0).
  { unfold enters in En0. fold q in En0.
    destruct (solve_start_cases _ _ _ _ _ _ _ _ En0) as [(_ & s1 & m1 & _ & Q1)|[(_ & s1 & l & E2 & _ & Hp & _ & Q1)|(Q1 & _)]]; [discriminate| |congruence].
    destruct (F _ E2) as (s2 & Q2 & Q3 & Q4 & Q5 & Q6). injection Q2 as <-. injection Q1 as ->. split; [exact Q3|]. auto. }
  destruct S0 as (S1 & S2 & S3 & S4).
  assert (Rd : Ready prob okls a b g st).
  { split; [exact (reach_EJ prob ewt_set nfuel okls Hls Hn a b Hsol g Hg Hep st Hr)|].
    assert (T0 : tr st = []) by (change (tr st0 = []); tauto). rewrite T0. split; [|split].
    - intros new past t1 y yp Q. destruct new; discriminate.
    - intros _. change (row (phi st0) 1 = dsol). rewrite Ph. reflexivity.
    - intros Q. exfalso. exact (Q Hz). }
  pose proof (enters_head _ _ _ _ _ _ _ _ En0) as Hd0.
  pose proof (enters_FJ prob ewt_set nfuel okls Hls Hn a b Hsol g Hep Hfuel _ _ _ _ _ _ O Rd En0) as F0.
  destruct (run_ends (Nat.max N 1) st s0 s st' tout tret nl m t r Hr F0 Hd0 (fun _ => S3) (proj1 Hmx)) as
    (-> & -> & B1 & B2 & B3 & B4 & c & d & B5 & B6 & B7 & B8); [rewrite S1, S2; lra|lia|exact L|exact Ends|].
  exists N, st'. split; [exact E|].
  assert (Ne : steps (tr st') <> []).
  { pose proof (nst_steps prob ewt_set Hl g _ _ st' Hg Hr') as X. apply X. exact B2. }
  assert (Fr : first_res dsol (tr st')) by (apply Hfr; exact Ne).
  assert (Bw : between h0 dmax st' tout).
  { constructor; try assumption. exists c, d. rewrite <- S2, <- S1. auto. }
  enough (get_yy st' = sol tout /\ get_yp st' = dsol) by tauto.
  destruct (C75_linear_exact prob ewt_set nfuel okls Hls Hn a b Hsol g Hg Hep st' Hr' Hs) as (_ & _ & _ & _ & D).
  destruct (C45_outputs_at_tout prob ewt_set Hl g _ _ st fuel (Nat.max N 1) tout tret st' tout Hg Hr E1) as (_ & _ & [(_ & _ & Q & _)|(_ & y & Ey & <- & <-)]).
  - exfalso. apply Q. change (steps (tr st0) = []). replace (tr st0) with (@nil (event R)) by (symmetry; tauto). reflexivity.
  - exact (D Ne tout y Ey).
Qed.

(** A later call with an output time further on. *)
Lemma next_output (st : state) h0 dmax tlast fuel tout tret : (0 < g_mxstep g < fuel)%nat ->
  between h0 dmax st tlast -> 0 < (tout - tlast) * h0 -> Rabs (tout - g_t0 g) <= dmax ->
  exists N st', (forall rfuel, (N <= rfuel)%nat ->
      solve prob ewt_set fuel rfuel st tout tret Normal = Ret (st', tout, Ok Success)) /\
    get_yy st' = sol tout /\ get_yp st' = dsol /\ between h0 dmax st' tout.
Proof.
  intros Hmx [Hr Hf Hz Ht Hin Hre (c & d & G1 & G2 & G3 & G4) Hfa] Hon Hd1.
  destruct (C76_linear_never_fails prob ewt_set nfuel okls Hls Hn a b Hsol g Hg Hep Hjac Hfuel st fuel tout tret Normal Hr
    (or_intror Hf) Hmx) as (N & st' & t & r & E & _ & Hs & Hfr).
  destruct (life_ok st Hr Hf Hz) as (Ar & Ku & Sg & Nr & Ts).
  assert (Hne : tout <> tlast) by (intros Q; rewrite Q in Hon; lra).
  assert (Hah : 0 < (tout - tlast) * hh st) by (rewrite G4; nra).
  pose proof (E (Nat.max N 1) ltac:(lia)) as E1.
  assert (Hr' : lives st') by (eapply reach_next; eassumption).
  pose proof (reach_ord prob ewt_set Hl g _ _ st Hg Hr) as O.
  set (q := task_set st tout Normal).
  assert (A9 : nst q = nst st) by exact (shell_nst _ _ _ (task_set_shell prob st tout Normal)).
  (* the stop test of the call *)
  assert (Start : forall x, solve_start prob ewt_set (Nat.max N 1) q tout tret Normal = Ret x ->
    (0 <= (tn (nlp st) - tout) * hh st /\ exists y, x = inl (set_tretlast tout y, tout, Ok Success) /\ nst y = nst st /\
        hh y = hh st /\ hused y = hused st /\ tn (nlp y) = tn (nlp st)) \/
    ((tn (nlp st) - tout) * hh st < 0 /\ exists s0, x = inr (s0, tret) /\ hh s0 = hh st /\ tn (nlp s0) = tn (nlp st) /\ nst s0 = nst st)).
  { intros x Ex. destruct (solve_start_cases _ _ _ _ _ _ _ _ Ex) as [(Q & _)|[(Q & _)|(_ & l & El & S1 & E2)]]; [congruence..|].
    set (p := on_lp (fun _ => l) q) in *.
    assert (P : hh p = hh st /\ hused p = hused st /\ nst p = nst st /\ tstop p = tstop st /\ tretlast p = tretlast st /\ nrtfn p = nrtfn st)
      by (repeat split). destruct P as (P1 & P2 & P3 & P4 & P5 & P6).
    assert (P7 : tn (nlp p) = tn (nlp st)).
    { pose proof (core_fields _ _ (sh_core _ _ _ S1)) as C. transitivity (tn (nlp q)); [tauto|reflexivity]. }
    destruct (later_call_cases _ _ _ _ _ _ _ E2) as [(Q & _)|[(Q & _)|[(Q & _)|(s & s' & t1 & r1 & _ & _ & Q & E3 & ->)]]]; [congruence..|].
    rewrite (Q (eq_trans P6 Nr)) in E3. clear Q s E2. unfold stop_test1 in E3. rewrite P4, Ts, P5, Ht in E3. cbv zeta in E3.
    destruct (seqb tout tlast) eqn:Eq; [apply Reqb_true in Eq; contradiction|]. rewrite P1, P7 in E3.
    destruct (sleb szero _) eqn:El2.
    - left. apply Rleb_true in El2. split; [exact El2|]. apply bind_ret_inv in E3 as ((y & z) & Eg & E3).
      assert (Tc : time_check p tout = None).
      { apply time_ok; rewrite ?P1, ?P2, ?P7; [exact Sg|].
        assert (0 <= 100 * eps * (Rabs (tn (nlp st)) + Rabs (hh st)) * Rabs (hh st)).
        { pose proof eps_pos. pose proof (Rabs_pos (tn (nlp st))). pose proof (Rabs_pos (hh st)).
          apply Rmult_le_pos; [|lra]. apply Rmult_le_pos; lra. }
        nra. }
      assert (z = Ok tt) as ->.
      { unfold get_solution in Eg. rewrite Tc in Eg. clear -Eg. minv. reflexivity. }
      apply get_solution_shell in Eg. pose proof (core_fields _ _ (sh_core _ _ _ Eg)) as C.
      apply ret_inj in E3. injection E3 as <- <- <-. exists y. split; [reflexivity|]. repeat split; [rewrite <- P3|rewrite <- P1|rewrite <- P2|rewrite <- P7]; tauto.
    - right. apply Rleb_false in El2. split; [exact El2|]. apply ret_inj in E3. injection E3 as <- <- <-. exists p. auto. }
  assert (Fin : exists c' d', r = Ok Success /\ t = tout /\ tretlast st' = tout /\ nst st' <> 0%nat /\
      0 < (tout - (tn (nlp st') - hused st')) * hh st' /\ 0 <= (tn (nlp st') - tout) * hh st' /\
      0 <= c' /\ 1 <= d' /\ tn (nlp st') = tn (nlp st) + c' * hh st /\ hh st' = d' * hh st).
  { destruct (solve_run _ _ _ _ _ _ _ _ _ _ _ E1) as [Q|(s0 & s & nl & m & En0 & L & Ends)].
    - unfold answers in Q. fold q in Q. destruct (Start _ Q) as [(S1 & y & Q1 & Y1 & Y2 & Y3 & Y4)|(_ & s0 & Q1 & _)]; [|discriminate].
      injection Q1 as -> -> ->. exists 0, 1. split; [reflexivity|]. split; [reflexivity|]. split; [reflexivity|].
      change (nst (set_tretlast tout y)) with (nst y). change (nlp (set_tretlast tout y)) with (nlp y).
      change (hh (set_tretlast tout y)) with (hh y). change (hused (set_tretlast tout y)) with (hused y).
      rewrite Y1, Y2, Y3, Y4. split; [exact Hz|]. split; [nra|]. split; [exact S1|]. split; [lra|]. split; [lra|]. split; ring.
    - pose proof En0 as En1. unfold enters in En1. fold q in En1.
      destruct (Start _ En1) as [(_ & y & Q1 & _)|(S1 & s0' & Q1 & Y1 & Y2 & Y3)]; [discriminate|]. injection Q1 as <-.
      pose proof (enters_head _ _ _ _ _ _ _ _ En0) as Hd0.
      assert (Rd : Ready prob okls a b g st).
      { destruct (first_starts _ _ Hf) as (F1 & F2). split; [exact (reach_EJ prob ewt_set nfuel okls Hls Hn a b Hsol g Hg Hep st Hr)|].
        split; [exact F1|]. split; [intros Q; contradiction|auto]. }
      pose proof (enters_FJ prob ewt_set nfuel okls Hls Hn a b Hsol g Hep Hfuel _ _ _ _ _ _ O Rd En0) as F0.
      destruct (run_ends (Nat.max N 1) st s0 s st' tout tret nl m t r Hr F0 Hd0) as
        (-> & -> & B1 & B2 & B3 & B4 & c' & d' & B5 & B6 & B7 & B8); [intros Q; congruence|apply Hmx| |lia|exact L|exact Ends|].
      + rewrite Y1, Y2, G4, Rabs_mult, (Rabs_right d) by lra.
        assert (X1 : Rabs (tout - tn (nlp st)) <= Rabs (tout - g_t0 g)).
        { rewrite G3, G4 in S1. rewrite G3. set (e := tout - g_t0 g) in *. replace (tout - (g_t0 g + c * h0)) with (e - c * h0) by (unfold e; ring).
          replace (g_t0 g + c * h0 - tout) with (c * h0 - e) in S1 by (unfold e; ring).
          assert (S2 : (c * h0 - e) * h0 < 0) by nra. unfold Rabs. destruct (Rcase_abs (e - c * h0)), (Rcase_abs e); nra. }
        assert (0 <= 2 ^ (g_mxstep g - 1)) by (apply pow_le; lra). pose proof (Rabs_pos h0).
        assert (0 <= 2 ^ (g_mxstep g - 1) * Rabs h0) by nra. nra.
      + exists c', d'. rewrite Y1, Y2 in *. auto 12. }
  destruct Fin as (c' & d' & -> & -> & B1 & B2 & B3 & B4 & B5 & B6 & B7 & B8).
  exists N, st'. split; [exact E|].
  destruct (C75_outputs_exact prob ewt_set nfuel okls Hls Hn a b Hsol g Hg Hep st fuel (Nat.max N 1) tout tret Normal st' tout Success Hr E1 Hs) as (D1 & D2).
  { left. split; [reflexivity|]. split; [reflexivity|]. rewrite Ht. exact Hne. }
  split; [exact D1|]. split; [exact D2|]. constructor; try assumption.
  - apply Hfr. pose proof (nst_steps prob ewt_set Hl g _ _ st' Hg Hr') as X. apply X. exact B2.
  - exists (c + c' * d), (d' * d). split; [nra|]. split; [nra|]. split; [rewrite B7, G3, G4; ring|rewrite B8, G4; ring].
Qed.

(** One call per output time; what each call returns, and y and y' after it. *)
Fixpoint outputs (fuel rfuel : nat) (st : state) (tret : R) (touts : list R)
  : outcome (list (R * result solve_status (err R) * list R * list R)) :=
  match touts with
  | [] => Ret []
  | tout :: rest =>
      let* (st', t, r) := solve prob ewt_set fuel rfuel st tout tret Normal in
      let* l := outputs fuel rfuel st' t rest in
      Ret ((t, r, get_yy st', get_yp st') :: l)
  end.

Lemma next_outputs fuel h0 dmax : (0 < g_mxstep g < fuel)%nat -> forall touts (st : state) tlast d,
  between h0 dmax st tlast -> 0 < d * h0 -> onward d tlast touts -> Forall (fun t => Rabs (t - g_t0 g) <= dmax) touts ->
  exists N, forall rfuel, (N <= rfuel)%nat ->
    outputs fuel rfuel st tlast touts = Ret (map (fun t => (t, Ok Success, sol t, dsol)) touts).
Proof.
  intros Hmx. induction touts as [|tout rest IH]; intros st tlast d Bw Hd On Fa; [exists 0%nat; reflexivity|].
  destruct On as (On1 & On2). apply Forall_cons_iff in Fa. destruct Fa as (Fa1 & Fa2).
  assert (Q : 0 < (tout - tlast) * h0).
  { destruct (same_sign_cases _ _ Hd) as [(?&?)|(?&?)], (same_sign_cases _ _ On1) as [(?&?)|(?&?)]; try lra; nra. }
  destruct (next_output st h0 dmax tlast fuel tout tlast Hmx Bw Q Fa1) as (N & st' & E & Y & Yp & Bw').
  destruct (IH st' tout d Bw' Hd On2 Fa2) as (N2 & E2).
  exists (Nat.max N N2). intros rfuel L. cbn [outputs]. rewrite E by lia. cbn [bind]. rewrite E2 by lia. cbn [bind map].
  rewrite Y, Yp. reflexivity.
Qed.

(** Every output of a run from a new object is the exact solution. *)
Theorem C77_all_outputs (st0 : state) fuel tret t1 rest :
  @ida_new R LSt (newton R) _ _ newton_pl prob (sol (g_t0 g)) dsol = Ret st0 ->
  (0 < g_mxstep g < fuel)%nat -> far (g_t0 g) t1 -> towards (g_hin g) (g_t0 g) t1 -> onward (t1 - g_t0 g) t1 rest ->
  let h0 := first_size (g_hin g) 0 (g_t0 g) t1 (wrms_norm (g_idv g) dsol (ewt_set (sol (g_t0 g))) (g_suppressalg g)) in
  (forall t, In t (t1 :: rest) -> Rabs (t - g_t0 g) <= 2 ^ (g_mxstep g - 1) * Rabs h0) ->
  exists N, forall rfuel, (N <= rfuel)%nat ->
    outputs fuel rfuel (configure g st0) tret (t1 :: rest) = Ret (map (fun t => (t, Ok Success, sol t, dsol)) (t1 :: rest)).
Proof.
  intros En Hmx Hf Htw On h0 Fa.
  destruct (first_output st0 fuel t1 tret (2 ^ (g_mxstep g - 1) * Rabs h0) En Hf Htw Hmx) as (N & st' & E & Y & Yp & Bw & Hs).
  { apply Fa. left. reflexivity. }
  { apply Rle_refl. }
  destruct (next_outputs fuel _ _ Hmx rest st' t1 (t1 - g_t0 g) Bw Hs On) as (N2 & E2).
  { apply Forall_forall. intros t I. apply Fa. right. exact I. }
  exists (Nat.max N N2). intros rfuel L. cbn [outputs]. rewrite E by lia. cbn [bind]. rewrite E2 by lia. cbn [bind map].
  rewrite Y, Yp. reflexivity.
Qed.
End Linear.

(** ** With the crate's solvers and scalar tolerances *)
Lemma masked_bound (id : list bool) (x w : list R) m c : (1 <= length x)%nat -> 0 <= c ->
  (forall i, (i < length x)%nat -> Rabs (nth i x 0 * nth i w 0) <= c) -> wrms_norm id x w m <= c.
Proof.
  intros Lx Hc Hb. unfold wrms_norm. destruct m; [rewrite norm_wrms_masked_eq|rewrite norm_wrms_eq]; apply wrms_le_bound; try assumption.
  intros i Li. destruct (nth i id false); [exact (Hb i Li)|]. rewrite Rmult_0_l, Rabs_R0. exact Hc.
Qed.

(** A relative tolerance of at least the machine epsilon. *)
Lemma ss_usable (prob : problem R) rtol atol a b g : (1 <= model_size prob)%nat -> eps <= rtol -> 0 < atol ->
  usable prob (ewt_set_ss rtol atol) a b g.
Proof.
  intros Hn Hr Ha t. set (y := affine (model_size prob) a b t).
  assert (Ly : length y = model_size prob) by (unfold y, affine; rewrite map_length, seq_length; reflexivity).
  destruct eps_pos as (He & _). assert (Hr0 : 0 <= rtol) by lra.
  destruct (ewt_ss_spec rtol atol y Hr0 Ha) as (L & S). split.
  - apply Forall_forall. intros x Ix. destruct (In_nth _ _ 0 Ix) as (i & Li & <-). apply S. rewrite <- L. exact Li.
  - assert (Q : wrms_norm (g_idv g) y (ewt_set_ss rtol atol y) (g_suppressalg g) <= / eps).
    { apply masked_bound; [lia|apply Rlt_le, Rinv_0_lt_compat; exact He|]. intros i Li. destruct (S i Li) as (-> & _).
      pose proof (weight_pos rtol atol (nth i y 0) Hr0 Ha) as Hp. pose proof (Rabs_pos (nth i y 0)) as Hy.
      rewrite Rabs_mult, (Rabs_right (1 / _)) by (apply Rle_ge, Rlt_le, Rdiv_lt_0_compat; lra).
      apply (Rmult_le_reg_r (rtol * Rabs (nth i y 0) + atol)); [exact Hp|].
      replace (Rabs (nth i y 0) * (1 / (rtol * Rabs (nth i y 0) + atol)) * (rtol * Rabs (nth i y 0) + atol)) with (Rabs (nth i y 0)) by (field; lra).
      apply (Rmult_le_reg_l eps); [exact He|]. rewrite <- Rmult_assoc, Rinv_r, Rmult_1_l by lra. nra. }
    apply (Rmult_le_compat_l eps) in Q; [|lra]. rewrite Rinv_r in Q by lra. exact Q.
Qed.

Lemma chosen_bound t0 t1 yn M D : t1 <> t0 -> 0 <= M -> D <= M * (Rabs (t1 - t0) / 1000) -> 2 * yn * D <= M ->
  D <= M * Rabs (first_size 0 0 t0 t1 yn).
Proof.
  intros Hne HM H1 H2. unfold first_size. destruct (Req_EM_T 0 0) as [_|Q]; [|contradiction]. cbv zeta.
  rewrite Rmult_0_r, Rmax_left by lra. unfold Rdiv at 1. rewrite Rinv_1, Rmult_1_r. unfold chosen_size. cbv zeta.
  rewrite Rabs_mult. replace (Rabs (if Rlt_dec t1 t0 then -1 else 1)) with 1 by (destruct (Rlt_dec t1 t0); [rewrite Rabs_left|rewrite Rabs_right]; lra).
  rewrite Rmult_1_l. set (d := Rabs (t1 - t0) / 1000) in *. assert (Hd : 0 < d) by (unfold d; assert (0 < Rabs (t1 - t0)) by (apply Rabs_pos_lt; lra); lra).
  destruct (Rlt_dec 2 (d * yn)) as [L|L]; [|rewrite Rabs_right by lra; exact H1].
  assert (Hy : 0 < yn) by nra.
  rewrite Rabs_right by (apply Rle_ge, Rlt_le, Rdiv_lt_0_compat; lra).
  apply (Rmult_le_reg_l (2 * yn)); [lra|]. replace (2 * yn * (M * (1 / (2 * yn)))) with M by (field; lra). exact H2.
Qed.

(** The run of a user: Newton and dense solver, scalar tolerances, no stop time, no
    step-size settings, no root functions. *)
Theorem C77_all_outputs_dense (prob : problem R) nfuel a b g rtol atol (st0 : ida R (list nat) (newton R)) fuel tret t1 rest :
  let N := NewtonNLS nfuel in
  let n := model_size prob in
  let ewt_set := ewt_set_ss rtol atol in
  (1 <= n)%nat -> (1 <= nfuel)%nat -> num_roots prob = 0%nat -> solves prob a b ->
  (forall t c, c <> 0 -> independent_cols n n (p_jac prob 0 c (affine n a b t) (rates n b) (vzero n))) ->
  config_ok g -> 0 <= g_epcon g -> g_tstop g = None -> g_hin g = 0 -> g_hmax_inv g = 0 -> eps <= rtol -> 0 < atol ->
  @ida_new R (list nat) (newton R) _ _ N prob (affine n a b (g_t0 g)) (rates n b) = Ret st0 ->
  (0 < g_mxstep g < fuel)%nat -> far (g_t0 g) t1 -> onward (t1 - g_t0 g) t1 rest ->
  (forall t, In t (t1 :: rest) ->
     Rabs (t - g_t0 g) <= 2 ^ (g_mxstep g - 1) * (Rabs (t1 - g_t0 g) / 1000) /\
     2 * wrms_norm (g_idv g) (rates n b) (ewt_set (affine n a b (g_t0 g))) (g_suppressalg g) * Rabs (t - g_t0 g) <= 2 ^ (g_mxstep g - 1)) ->
  exists K, forall rfuel, (K <= rfuel)%nat ->
    outputs prob ewt_set nfuel fuel rfuel (configure g st0) tret (t1 :: rest) =
    Ret (map (fun t => (t, Ok Success, affine n a b t, rates n b)) (t1 :: rest)).
Proof.
  intros N n ewt_set Hn Hf Hnr Hs Hj Hg He Hts Hhin Hhm Hrt Hat En Hm Hfar Hon Hb.
  apply (C77_all_outputs prob ewt_set nfuel (fun piv => length piv = n) (dense_zero n Hn) Hn a b Hs g Hg He Hts); try assumption.
  - intros s t c Ls Hc. destruct (proj2 (dense_setup_ok_iff n n _ s (le_n n) Ls) (Hj t c Hc)) as (piv & F & E).
    exists piv, F. exact E.
  - exact (ss_usable prob rtol atol a b g Hn Hrt Hat).
  - left. exact Hhin.
  - intros t It. destruct (Hb t It) as (B1 & B2). rewrite Hhin. apply chosen_bound; try assumption; [apply Hfar|apply pow_le; lra].
Qed.

Print Assumptions C77_step_sizes.
Print Assumptions C77_all_outputs.
Print Assumptions C77_all_outputs_dense.

(** ** Hypotheses met *)
(** y1' = 1, y2 = 2 y1 from (0, 0), default settings, outputs at 1, 2 and 10. *)
Lemma lin2_rates_norm : wrms_norm (repeat false 2) (rates 2 lin_b) (ewt_set_ss (/ 10000) (/ 1000000) (affine 2 lin_a lin_b 0)) false <= 2000000.
Proof.
  apply masked_bound; [cbn; lia|lra|]. intros i Li. cbn in Li.
  assert (E : forall i, (i < 2)%nat -> nth i (ewt_set_ss (/ 10000) (/ 1000000) (affine 2 lin_a lin_b 0)) 0 = 1000000).
  { intros j Lj. destruct (ewt_ss_spec (/ 10000) (/ 1000000) (affine 2 lin_a lin_b 0)) as (_ & S); [lra|lra|].
    destruct (S j Lj) as (-> & _). replace (nth j (affine 2 lin_a lin_b 0) 0) with 0; [rewrite Rabs_R0; field|].
    destruct j as [|[|j]]; [cbn; unfold lin_a, lin_b; ring..|lia]. }
  rewrite (E i Li). rewrite Rabs_mult, (Rabs_right 1000000) by lra.
  assert (Rabs (nth i (rates 2 lin_b) 0) <= 2); [|lra].
  destruct i as [|[|i]]; [cbn; rewrite Rabs_right; lra..|lia].
Qed.

Lemma pow_499 : 10 ^ 9 <= 2 ^ 499.
Proof.
  replace 499%nat with (30 + 469)%nat by reflexivity. rewrite pow_add.
  assert (1 <= 2 ^ 469) by (apply pow_R1_Rle; lra). assert (10 ^ 9 <= 2 ^ 30) by (cbn; lra). assert (0 < 10 ^ 9) by (cbn; lra). nra.
Qed.

Example C77_hypotheses_met : exists (st0 : ida R (list nat) (newton R)) K,
  @ida_new R (list nat) (newton R) _ _ (NewtonNLS 1) lin2 [0; 0] [1; 2] = Ret st0 /\
  forall rfuel, (K <= rfuel)%nat ->
    outputs lin2 (ewt_set_ss (/ 10000) (/ 1000000)) 1 501 rfuel (configure (default_config lin2) st0) 0 [1; 2; 10] =
    Ret [(1, Ok Success, [1; 2], [1; 2]); (2, Ok Success, [2; 4], [1; 2]); (10, Ok Success, [10; 20], [1; 2])].
Proof.
  destruct C76_hypotheses_met as (st0 & Hn & Hs & Hg & He & Hj & _ & En & Hm).
  assert (Ea : forall t, affine 2 lin_a lin_b t = [t; 2 * t]).
  { intros t. cbn. unfold lin_a. repeat (f_equal; try ring). }
  assert (Er : rates 2 lin_b = [1; 2]) by reflexivity.
  assert (En2 : @ida_new R (list nat) (newton R) _ _ (NewtonNLS 1) lin2 (affine 2 lin_a lin_b (g_t0 (default_config lin2))) (rates 2 lin_b) = Ret st0) by exact En.
  destruct (C77_all_outputs_dense lin2 1 lin_a lin_b (default_config lin2) (/ 10000) (/ 1000000) st0 501 0 1 [2; 10]) as (K & E);
    try assumption; try reflexivity; try (cbn; lia).
  - unfold eps. cbn. lra.
  - lra.
  - split; [cbn; lra|]. cbn [g_t0 default_config]. change (@szero R _) with 0. rewrite Rabs_R0, Rminus_0_r, Rabs_R1. unfold eps. cbn. lra.
  - cbn. lra.
  - intros t It. change (g_mxstep (default_config lin2) - 1)%nat with 499%nat. change (g_t0 (default_config lin2)) with 0. rewrite !Rminus_0_r, Rabs_R1.
    assert (Ht : 0 <= t <= 10) by (cbn in It; intuition (subst; lra)). rewrite (Rabs_right t) by lra. pose proof pow_499 as P.
    assert (Pn : 10 ^ 9 = 1000000000) by (cbn; lra). rewrite Pn in P.
    pose proof lin2_rates_norm as Q. split; [lra|].
    change (wrms_norm (g_idv (default_config lin2)) (rates (model_size lin2) lin_b) _ (g_suppressalg (default_config lin2)))
      with (wrms_norm (repeat false 2) (rates 2 lin_b) (ewt_set_ss (/ 10000) (/ 1000000) (affine 2 lin_a lin_b 0)) false). 
    set (w := wrms_norm _ _ _ _) in *. assert (0 <= w) by apply wrms_norm_nonneg. apply Rle_trans with 1000000000; [nra|exact P].
  - exists st0, K. split.
    + rewrite <- En. rewrite Ea, Er, Rmult_0_r. reflexivity.
    + intros rfuel L. rewrite (E rfuel L). cbn [map]. change (model_size lin2) with 2%nat. rewrite !Ea, Er.
      replace (2 * 1) with 2 by ring. replace (2 * 2) with 4 by ring. replace (2 * 10) with 20 by ring. reflexivity.
Qed.

(** A life with accepted steps (hypotheses of C74, C75 and C77_step_sizes). *)
Example C75_hypotheses_met : exists st' : ida R (list nat) (newton R),
  @reach R (list nat) (newton R) _ _ (NewtonNLS 1) lin2 (ewt_set_ss (/ 10000) (/ 1000000)) (default_config lin2)
    (affine 2 lin_a lin_b 0) (rates 2 lin_b) st' /\
  starts_with (rates 2 lin_b) (trace (lp (nlp st'))) /\ first_res (rates 2 lin_b) (trace (lp (nlp st'))) /\
  steps (trace (lp (nlp st'))) <> [] /\ (1 <= model_size lin2)%nat /\ solves lin2 lin_a lin_b /\ g_tstop (default_config lin2) = None.
Proof.
  destruct C76_hypotheses_met as (st0 & Hn & Hs & Hg & He & Hj & _ & En & Hm).
  set (w := wrms_norm (repeat false 2) (rates 2 lin_b) (ewt_set_ss (/ 10000) (/ 1000000) (affine 2 lin_a lin_b 0)) false).
  assert (Hb : 1 <= 2 ^ 499 * Rabs (first_size 0 0 0 1 w)).
  { apply chosen_bound; [lra|apply pow_le; lra| |]; pose proof pow_499 as P; assert (Pn : 10 ^ 9 = 1000000000) by (cbn; lra); rewrite Pn in P.
    - rewrite Rminus_0_r, Rabs_R1. lra.
    - pose proof lin2_rates_norm as Q. fold w in Q. lra. }
  destruct (first_output lin2 (ewt_set_ss (/ 10000) (/ 1000000)) 1 (fun piv => length piv = 2%nat) (dense_zero 2 Hn) Hn lin_a lin_b Hs
    (default_config lin2) Hg He eq_refl) with (st0 := st0) (fuel := 501%nat) (tout := 1) (tret := 0) (dmax := 1)
    as (N & st' & E & _ & _ & Bw & _); try assumption; try reflexivity; try (cbn; lia).
  - intros s t c Ls Hc. destruct (proj2 (dense_setup_ok_iff 2 2 _ s (le_n 2) Ls) (Hj t c Hc)) as (piv & F & E).
    exists piv, F. exact E.
  - apply ss_usable; [exact Hn|unfold eps; cbn; lra|lra].
  - split; [cbn; lra|]. cbn [g_t0 default_config]. change (@szero R _) with 0. rewrite Rabs_R0, Rminus_0_r, Rabs_R1. unfold eps. cbn. lra.
  - left. reflexivity.
  - change (g_t0 (default_config lin2)) with 0. rewrite Rminus_0_r, Rabs_R1. lra.
  - exists st'. pose proof (bw_lives _ _ _ _ _ _ _ _ _ _ Bw) as Hr. pose proof (bw_first _ _ _ _ _ _ _ _ _ _ Bw) as Hf.
    split; [exact Hr|]. split; [exact (proj1 (first_starts _ _ Hf))|]. split; [exact Hf|]. split; [|auto].
    pose proof (nst_steps lin2 (ewt_set_ss (/ 10000) (/ 1000000)) (newton_lawful 1) (default_config lin2) _ _ st' Hg Hr) as X. apply X.
    exact (bw_nst _ _ _ _ _ _ _ _ _ _ Bw).
Qed.
