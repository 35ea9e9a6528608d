(** * PropNls: the nonlinear iteration inside a step: C42, C44, C65, C66, C67
      (src/ida_nls.rs, src/ida_ls.rs, src/lib.rs 787-890) *)
Require Import List Arith Bool Lia Reals Lra Psatz Floats.
Import ListNotations.
Require Import Verif.Base Verif.Scalar Verif.ScalarR Verif.ScalarF Verif.Dense Verif.RSum Verif.DenseSpec
  Verif.Norms Verif.NormsR Verif.VecR Verif.Newton Verif.NewtonSpec Verif.IdaState Verif.IdaNls Verif.IdaCore Verif.IdaRoots
  Verif.IdaSolve Verif.IdaIo Verif.BaseFacts Verif.NewtonFacts Verif.IdaFacts Verif.IdaLoops Verif.IdaStep Verif.IdaSpec
  Verif.IdaShell Verif.IdaReach Verif.IdaInv Verif.IdaCount Verif.IdaLife Verif.IdaTrace Verif.IdaAccept
  Verif.PropDense Verif.IdaJac Verif.Witness.
Open Scope nat_scope.

(** ** C42 *)
Section C42.
Context {T LSt : Type} `{Scalar T} `{LSolver T LSt}.
Variable prob : problem T.
Variable ewt_set : list T -> list T.
Variable fuel : nat.
Notation state := (ida T LSt (newton T)).
Notation tr st := (trace (lp (nlp st))).

(** With the Newton solver, every attempt (step size [h], order [k]) evaluates
    the residual first.  If a further event follows, it is a Jacobian evaluation
    exactly if no step had been completed, or the ratio of the attempt's leading
    coefficient to the one the latest Jacobian was evaluated with is below
    [sxrate_lo] = 3/5 or above its reciprocal; and a Jacobian is evaluated with
    the attempt's own leading coefficient. *)
Theorem C42_refresh_policy : forall c yy0 yp0 (st : state),
  config_ok c -> model_size prob <> 0 ->
  @reach T LSt (newton T) _ _ (NewtonNLS fuel) prob ewt_set c yy0 yp0 st ->
  (forall new e past t h k, tr st = new ++ e :: CTry t h k :: past -> is_res e = true) /\
  (forall new e past t h k t1 y1 yp1,
     tr st = new ++ e :: CRes t1 y1 yp1 :: CTry t h k :: past ->
     (is_jac e = true <->
        steps past = [] \/
        exists c0, last_jac past = Some c0 /\
          ((lead k h / c0 <? sxrate_lo)%sc = true \/ (srecip sxrate_lo <? lead k h / c0)%sc = true)) /\
     (forall t' c' y' yp', e = CJac t' c' y' yp' -> c' = lead k h)).
Proof.
  intros c yy0 yp0 st Hc Hn Hr.
  destruct (reach_refreshed prob ewt_set fuel c Hc Hn yy0 yp0 st Hr) as (R1 & _ & _). split.
  - intros new e past t h k E. exact (R1 _ _ _ E).
  - intros new e past t h k t1 y1 yp1 E. destruct (R1 _ _ _ E) as (A & B). split; [|exact B].
    assert (Hp : every jac_policy past).
    { rewrite E in R1. apply (every_past _ (new ++ [e; CRes t1 y1 yp1; CTry t h k])). rewrite <- app_assoc. exact R1. }
    rewrite A. unfold due. destruct (steps past) as [|a l] eqn:Es; [tauto|].
    destruct (last_jac past) as [c0|] eqn:Ej.
    + rewrite orb_true_iff. split; [intros X; right; exists c0; auto|].
      intros [X|(c1 & [= <-] & X)]; [discriminate|exact X].
    + destruct (steps_have_jac past Hp Ej) as (X & _). congruence.
Qed.
End C42.

(** Over the reals: [lead] is the leading coefficient of the fixed-leading-coefficient BDF,
    (1 + 1/2 + ... + 1/k) / h, and the window is [3/5, 5/3]. *)
Open Scope R_scope.
Lemma lead_R k (h : R) : lead k h = rsum k (fun i => / INR (i + 1)) / h.
Proof.
  unfold lead. cbn [sneg sdiv ScalarR]. f_equal.
  enough (A : asum k = - rsum k (fun i => / INR (i + 1))) by (rewrite A; ring).
  induction k as [|k IH]; [cbn; ring|]. cbn [asum rsum]. rewrite IH. cbn [ssub sdiv sone sofnat ScalarR].
  unfold Rdiv. ring.
Qed.

Theorem C42_refresh_window_R : forall (LSt : Type) (LS : LSolver R LSt) (prob : problem R) ewt_set fuel c yy0 yp0
    (st : ida R LSt (newton R)),
  config_ok c -> model_size prob <> 0%nat ->
  @reach R LSt (newton R) _ _ (NewtonNLS fuel) prob ewt_set c yy0 yp0 st ->
  forall new e past t h k t1 y1 yp1,
  trace (lp (nlp st)) = new ++ e :: CRes t1 y1 yp1 :: CTry t h k :: past ->
  let cnew := rsum k (fun i => / INR (i + 1)) / h in
  (is_jac e = true <->
     steps past = [] \/ exists c0, last_jac past = Some c0 /\ ~ (3 / 5 <= cnew / c0 <= 5 / 3)).
Proof.
  intros LSt LS prob ew fuel c yy0 yp0 st Hc Hn Hr new e past t h k t1 y1 yp1 E cnew.
  destruct (C42_refresh_policy prob ew fuel c yy0 yp0 st Hc Hn Hr) as (_ & P).
  destruct (P _ _ _ _ _ _ _ _ _ E) as (Q & _). rewrite Q, lead_R. fold cnew. clear.
  assert (W : forall c0, ((cnew / c0 <? sxrate_lo)%sc = true \/ (srecip sxrate_lo <? cnew / c0)%sc = true) <->
                         ~ (3 / 5 <= cnew / c0 <= 5 / 3)).
  { intros c0. unfold srecip. cbn [sltb sdiv sone sxrate_lo ScalarR]. rewrite !Rltb_true. set (q := cnew / c0). clearbody q. lra. }
  split; (intros [X|(c0 & X1 & X2)]; [left; exact X|right; exists c0; split; [exact X1|]]); apply W; exact X2.
Qed.

(** ** C66 *)
(** The matrix factored by the latest set-up is J; then a solve with right-hand
    side b returns x with J x = 2 / (1 + cjratio) b (for cjratio = 1: J x = b). *)
Theorem C66_update_scaled : forall (prob : problem R) (l l1 l2 : lprob R (list nat)) y yp r b,
  (1 <= model_size prob)%nat -> length (lp_ls l) = model_size prob -> length b = model_size prob ->
  lp_setup prob l y yp r = Ret l1 ->
  lp_ls l2 = lp_ls l1 -> lp_matj l2 = lp_matj l1 ->
  exists l3 x, lp_solve prob l2 b = Ret (l3, x) /\ length x = model_size prob /\
    forall i, (i < model_size prob)%nat ->
      rsum (model_size prob) (fun j => p_jac prob 0 (cj l) y yp r i j * vget x j) =
      2 / (1 + cjratio l2) * vget b i.
Proof.
  intros prob l l1 l2 y yp r b Hn Hp Hb E E1 E2. set (n := model_size prob) in *.
  unfold lp_setup in E. fold n in E. destruct (Nat.eqb_spec n 0) as [X|_]; [lia|].
  cbv zeta in E. apply bind_ret_inv in E as (((ls & m) & res) & Es & E). cbv beta iota in E.
  destruct res as [[]|e]; [|discriminate]. injection E as <-.
  cbn [lp_ls lp_matj set_lp_ls set_lp_matj] in E1, E2.
  cbn [ls_setup DenseLS lp_ls lp_matj set_lp_matj push_ev set_trace set_nje cj] in Es.
  change (dense_setup (lp_ls l) (mkmat n n (p_jac prob 0 (cj l) y yp r)) = Ret (ls, m, Ok tt)) in Es.
  destruct (C02_dense_solve_solves n _ (lp_ls l) m ls b 0 Hn Hp Hb Es) as (x & Ex & Lx & Sx).
  unfold lp_solve. cbn [ls_type DenseLS ls_solve lp_ls set_lp_x lp_matj]. rewrite E1, E2. cbn [szero ScalarR]. rewrite Ex.
  cbn [bind]. do 2 eexists. split; [reflexivity|]. cbn [cjratio set_lp_x lp_x].
  cbn [sone sdiv stwo sadd ScalarR]. unfold sneqb. cbn [seqb ScalarR].
  destruct (Reqb (cjratio l2) 1) eqn:Er; cbn [negb].
  - apply Reqb_true in Er. split; [exact Lx|]. intros i Hi. rewrite Er. unfold solves in Sx. specialize (Sx i Hi).
    unfold vget. cbn [szero ScalarR]. rewrite Sx. lra.
  - fold n. split; [apply length_vscale|]. intros i Hi. specialize (Sx i Hi). cbn beta in Sx.
    transitivity (2 / (1 + cjratio l2) * rsum n (fun j => p_jac prob 0 (cj l) y yp r i j * nth j x 0)).
    + rewrite <- rsum_scal. apply rsum_ext. intros j Hj. rewrite vget_vscale by exact Hj. unfold vget.
      cbn [smul szero ScalarR]. ring.
    + rewrite Sx. reflexivity.
Qed.

(** One equation with iteration matrix g + c m (g from the algebraic part, m from
    the derivative part), set up with c0 and used with c1 = cjratio * c0.  If the
    iterate is off by [e], the residual is (g + c1 m) e, and after the update the
    error is [e + x]: it is reduced by at least |(cjratio - 1)/(cjratio + 1)|, and
    by exactly that factor at the extremes g = 0 and m = 0. *)
Theorem C66_error_factor : forall (prob : problem R) (l l1 l2 : lprob R (list nat)) y yp r g m e,
  model_size prob = 1%nat -> length (lp_ls l) = 1%nat ->
  (forall c, p_jac prob 0 c y yp r 0%nat 0%nat = g + c * m) ->
  lp_setup prob l y yp r = Ret l1 ->
  lp_ls l2 = lp_ls l1 -> lp_matj l2 = lp_matj l1 ->
  0 < cjratio l2 -> 0 <= g * (cj l * m) ->
  exists l3 x, lp_solve prob l2 [- ((g + cjratio l2 * cj l * m) * e)] = Ret (l3, [x]) /\
    Rabs (e + x) <= Rabs ((cjratio l2 - 1) / (cjratio l2 + 1)) * Rabs e /\
    (g = 0 \/ m = 0 -> Rabs (e + x) = Rabs ((cjratio l2 - 1) / (cjratio l2 + 1)) * Rabs e).
Proof.
  intros prob l l1 l2 y yp r g m e Hn Hp Hj E E1 E2 Ha Hgm.
  assert (Hne : g + cj l * m <> 0).
  { pose proof E as E'. unfold lp_setup in E'. rewrite Hn in E'. cbn [Nat.eqb] in E'. cbv zeta in E'.
    apply bind_ret_inv in E' as (((ls & mm) & res) & Es & E'). cbv beta iota in E'.
    destruct res as [[]|]; [|discriminate]. clear E'.
    change (dense_setup (lp_ls l) (mkmat 1 1 (p_jac prob 0 (cj l) y yp r)) = Ret (ls, mm, Ok tt)) in Es.
    assert (Hi : independent_cols 1 1 (p_jac prob 0 (cj l) y yp r)).
    { apply (C03_dense_ok_iff_independent 1 1 _ (lp_ls l) (le_n _) Hp). eauto. }
    intros Hz. unfold independent_cols in Hi. specialize (Hi (fun _ => 1)). cbn [rsum] in Hi.
    assert (X : 1 = 0); [|lra]. apply (Hi) with (j := 0%nat); [|lia].
    intros i Hi'. replace i with 0%nat by lia. rewrite Hj, Hz. ring. }
  destruct (C66_update_scaled prob l l1 l2 y yp r [- ((g + cjratio l2 * cj l * m) * e)]) as (l3 & x & Ex & Lx & Sx);
    rewrite ?Hn; auto.
  rewrite Hn in *. destruct x as [|x [|]]; try discriminate. exists l3, x. split; [exact Ex|].
  specialize (Sx 0%nat ltac:(lia)). cbn in Sx. rewrite Hj in Sx. set (al := cjratio l2) in *. set (c0 := cj l) in *.
  assert (Hx : e + x = (al - 1) / (al + 1) * ((g - c0 * m) / (g + c0 * m)) * e).
  { assert (Hx : x = 2 / (1 + al) * - ((g + al * c0 * m) * e) / (g + c0 * m)).
    { rewrite <- Sx. field. exact Hne. }
    rewrite Hx. field. split; lra. }
  rewrite Hx, !Rabs_mult. set (u := c0 * m) in *.
  assert (Hq : Rabs ((g - u) / (g + u)) <= 1).
  { unfold Rdiv. rewrite Rabs_mult, Rabs_inv. apply Rmult_le_reg_r with (Rabs (g + u)); [apply Rabs_pos_lt; exact Hne|].
    rewrite Rmult_assoc, Rinv_l by (apply Rabs_no_R0; exact Hne). rewrite Rmult_1_r, Rmult_1_l.
    apply Rsqr_le_abs_0. unfold Rsqr. nra. }
  pose proof (Rabs_pos ((al - 1) / (al + 1))) as P1. pose proof (Rabs_pos e) as P2. split.
  - pose proof (Rmult_le_compat_l _ _ _ P1 Hq) as Q. pose proof (Rmult_le_compat_r _ _ _ P2 Q) as Q'. lra.
  - intros Hz. assert (Hq1 : Rabs ((g - u) / (g + u)) = 1).
    { destruct Hz as [Hz|Hz].
      - replace ((g - u) / (g + u)) with (-1).
        + rewrite Rabs_left; lra.
        + rewrite Hz in *. field. intros Hu. apply Hne. rewrite Hu. ring.
      - assert (Hu : u = 0) by (unfold u; rewrite Hz; ring). rewrite Hu in *.
        replace ((g - 0) / (g + 0)) with 1; [apply Rabs_R1|]. field. intros Hu'. apply Hne. lra. }
    rewrite Hq1. ring.
Qed.

Definition one_eq (g m : R) : problem R :=
  mkproblem 1 0 (fun _ y yp _ => g * vget y 0 + m * vget yp 0) (fun _ c _ _ _ _ _ => g + c * m) (fun _ _ _ _ => 0).

Example C66_hypotheses_met :
  exists (l l1 l2 : lprob R (list nat)), length (lp_ls l) = 1%nat /\
    lp_setup (one_eq 2 3) l [1] [0] [2] = Ret l1 /\ cj l = 5 /\
    lp_ls l2 = lp_ls l1 /\ lp_matj l2 = lp_matj l1 /\ cjratio l2 = 4 / 3 /\ 0 <= 2 * (5 * 3).
Proof.
  set (l := set_cj 5 (lp_new (one_eq 2 3)) : lprob R (list nat)).
  destruct (proj2 (C03_dense_ok_iff_independent 1 1 (fun _ _ => 2 + 5 * 3) [0]%nat (le_n _) eq_refl)) as (piv & F & E).
  { intros x Hx j Hj. specialize (Hx 0%nat ltac:(lia)). cbn in Hx. replace j with 0%nat by lia. lra. }
  eexists l, _, (set_cjratio (4 / 3) _). split; [reflexivity|]. split.
  - unfold lp_setup. cbn [model_size one_eq Nat.eqb]. cbv zeta. cbn [ls_setup DenseLS].
    change (mkmat 1 1 (p_jac (one_eq 2 3) szero (cj (push_ev (CJac szero (cj (set_nje (nje l + 1) l)) [1] [0]) (set_nje (nje l + 1) l))) [1] [0] [2]))
      with (mkmat 1 1 (fun _ _ : nat => 2 + 5 * 3)).
    match goal with |- bind ?a _ = _ => change a with (dense_setup [0]%nat (mkmat 1 1 (fun _ _ : nat => 2 + 5 * 3))) end.
    rewrite E. cbn [bind]. reflexivity.
  - split; [reflexivity|]. split; [reflexivity|]. split; [reflexivity|]. split; [reflexivity|lra].
Qed.

(** ** C67 *)
Open Scope nat_scope.
Section C67.
Context {T LSt : Type} `{Scalar T} `{LSolver T LSt}.
Variable prob : problem T.
Notation n := (model_size prob).

(** What the convergence tests of a solve depend on, read off the log of the
    calls made so far: the norm of the update at the latest test with index 0,
    and the latest error factor: 20 after a set-up, rate / (1 - rate) after a
    later test that did not diverge. *)
Definition conv_rate (first : T) (m : nat) (del w : list T) : T :=
  spowf (norm_wrms del w / first)%sc (srecip (sofnat m)).
Definition track1 (p : T * T) (e : nlevent T) : T * T :=
  match e with
  | EvSetup _ _ _ _ => (fst p, stwenty)
  | EvCtest 0 _ del _ w _ => (norm_wrms del w, snd p)
  | EvCtest m _ del _ w _ =>
      let rate := conv_rate (fst p) m del w in
      (fst p, if (sratemax <? rate)%sc then snd p else (rate / (sone - rate))%sc)
  | _ => p
  end.
Definition track (p : T * T) (log : list (nlevent T)) : T * T := fold_left track1 log p.

(** The answer of a test with index [m]; [tiny] is the bound for a first update
    small enough to be accepted at once. *)
Definition verdict_ok (p : T * T) (tiny : T) (e : nlevent T) : Prop :=
  match e with
  | EvCtest m _ del tol w r =>
      let rate := conv_rate (fst p) m del w in
      (r = Err ConvergenceRecover <-> m <> 0 /\ (sratemax <? rate)%sc = true) /\
      (forall er, r = Err er -> er = ConvergenceRecover) /\
      (r = Ok true <->
         m = 0 /\ ((norm_wrms del w <=? tiny)%sc = true \/ (snd p * norm_wrms del w <=? tol)%sc = true) \/
         m <> 0 /\ (sratemax <? rate)%sc = false /\ (rate / (sone - rate) * norm_wrms del w <=? tol)%sc = true)
  | _ => True
  end.

Definition judged (s0 : nlprob T LSt) (sl : nlprob T LSt * list (nlevent T)) : Prop :=
  (oldnrm (fst sl), ss (fst sl)) = track (oldnrm s0, ss s0) (snd sl) /\ toldel (fst sl) = toldel s0 /\
  forall pre e post, snd sl = pre ++ e :: post ->
    verdict_ok (track (oldnrm s0, ss s0) pre) (spt0001 * toldel s0)%sc e.

Lemma app_snoc_split {A} (l : list A) x pre e post : l ++ [x] = pre ++ e :: post ->
  (post = [] /\ pre = l /\ e = x) \/ exists post', l = pre ++ e :: post'.
Proof.
  intros E. destruct post as [|z post] using rev_ind; [|clear IHpost].
  - apply app_inj_tail in E as (-> & ->). auto.
  - right. exists post. rewrite app_comm_cons, app_assoc in E. apply app_inj_tail in E. tauto.
Qed.

Lemma judged_preserved (s0 : nlprob T LSt) : preserves (traced (ida_nlproblem prob)) (judged s0).
Proof.
  assert (Hpush : forall s log s' e, judged s0 (s, log) ->
    (oldnrm s', ss s') = track1 (oldnrm s, ss s) e -> toldel s' = toldel s ->
    verdict_ok (oldnrm s, ss s) (spt0001 * toldel s)%sc e -> judged s0 (s', log ++ [e])).
  { intros s log s' e (J1 & J2 & J3) E1 E2 V. cbn [fst snd] in *. unfold judged. cbn [fst snd].
    split; [unfold track; rewrite fold_left_app; cbn; unfold track in J1; rewrite <- J1; exact E1|].
    split; [congruence|]. intros pre x post Ex. apply app_snoc_split in Ex as [(-> & -> & ->)|(post' & Ex)].
    - rewrite <- J1, <- J2. exact V.
    - eapply J3. exact Ex. }
  split; [|split; [|split]].
  - intros (s & log) y (s' & log') f r J E. cbn [traced np_sys fst snd] in E.
    apply bind_ret_inv in E as (((s1 & f1) & r1) & E1 & E). cbv beta iota in E. injection E as <- <- <- <-.
    cbn [ida_nlproblem np_sys] in E1. unfold nlp_sys in E1. cbv zeta in E1. injection E1 as <- <- <-.
    eapply Hpush; [exact J|reflexivity|reflexivity|exact I].
  - intros (s & log) y f j (s' & log') r J E. cbn [traced np_setup fst snd] in E.
    apply bind_ret_inv in E as ((s1 & r1) & E1 & E). cbv beta iota in E. injection E as <- <- <-.
    cbn [ida_nlproblem np_setup] in E1. unfold nlp_setup in E1. cbv zeta in E1.
    apply bind_ret_inv in E1 as (l & _ & E1). cbv beta in E1. injection E1 as <- <-.
    eapply Hpush; [exact J|reflexivity|reflexivity|exact I].
  - intros (s & log) y b (s' & log') x r J E. cbn [traced np_solve fst snd] in E.
    apply bind_ret_inv in E as (((s1 & f1) & r1) & E1 & E). cbv beta iota in E. injection E as <- <- <- <-.
    cbn [ida_nlproblem np_solve] in E1. unfold nlp_solve in E1.
    apply bind_ret_inv in E1 as ((l & b') & _ & E1). cbv beta iota in E1. injection E1 as <- <- <-.
    eapply Hpush; [exact J|reflexivity|reflexivity|exact I].
  - intros (s & log) i y d tol w (s' & log') r J E. cbn [traced np_ctest fst snd] in E.
    apply bind_ret_inv in E as ((s1 & r1) & E1 & E). cbv beta iota in E. injection E as <- <- <-.
    cbn [ida_nlproblem np_ctest] in E1. unfold nlp_ctest in E1. cbv zeta in E1.
    destruct i as [|i]; cbn [Nat.eqb] in E1.
    + assert (X : s1 = set_oldnrm (norm_wrms d w) s /\
        r1 = Ok ((norm_wrms d w <=? spt0001 * toldel s) || (ss s * norm_wrms d w <=? tol))%sc).
      { change (toldel (set_oldnrm (norm_wrms d w) s)) with (toldel s) in E1. change (ss (set_oldnrm (norm_wrms d w) s)) with (ss s) in E1.
        destruct (_ <=? spt0001 * _)%sc; injection E1 as <- <-; auto. }
      destruct X as (-> & ->). eapply Hpush; [exact J|reflexivity|reflexivity|].
      cbn [verdict_ok fst snd]. split; [split; [discriminate|intros ([] & _); reflexivity]|].
      split; [discriminate|].
      split.
      * intros X. injection X as X. apply orb_true_iff in X. auto.
      * intros [(_ & X)|([] & _)]; [|reflexivity]. apply orb_true_iff in X. rewrite X. reflexivity.
    + fold (conv_rate (oldnrm s) (S i) d w) in E1. set (rate := conv_rate (oldnrm s) (S i) d w) in *.
      destruct (sratemax <? rate)%sc eqn:Er.
      * injection E1 as <- <-. eapply Hpush; [exact J| |reflexivity|].
        { cbn [track1 fst snd]. fold rate. rewrite Er. reflexivity. }
        cbn [verdict_ok fst snd]. fold rate. rewrite Er.
        split; [split; [auto|reflexivity]|]. split; [congruence|].
        split; [discriminate|]. intros [(X & _)|(_ & X & _)]; discriminate.
      * change (ss (set_ss (rate / (sone - rate))%sc s)) with (rate / (sone - rate))%sc in E1. injection E1 as <- <-.
        eapply Hpush; [exact J| |reflexivity|].
        { cbn [track1 fst snd]. fold rate. rewrite Er. reflexivity. }
        cbn [verdict_ok fst snd]. fold rate. rewrite Er.
        split; [split; [discriminate|intros (_ & X); discriminate]|]. split; [discriminate|].
        split; [intros X; injection X as X; right; auto|intros [(X & _)|(_ & _ & X)]; [discriminate|rewrite X; reflexivity]].
Qed.

(** In every solve of the integrator's nonlinear problem by the Newton solver,
    each convergence test answers as [verdict_ok] says: divergence iff the
    estimated rate (m-th root of the ratio of the current and the first update)
    exceeds [sratemax] = 0.9; acceptance iff, at the first test, the update is
    tiny or the saved factor times its norm is within the tolerance, and later
    iff rate / (1 - rate) times the norm is. *)
Theorem C67_convergence_test : forall fuel nw (s : nlprob T LSt) y0 y w tol call nw' s' y' r,
  newton_solve (ida_nlproblem prob) n fuel nw s y0 y w tol call = Ret (nw', s', y', r) ->
  exists es, log_of (ida_nlproblem prob) n fuel nw s y0 y w tol call es /\
    forall pre e post, es = pre ++ e :: post ->
      verdict_ok (track (oldnrm s, ss s) pre) (spt0001 * toldel s)%sc e.
Proof.
  intros fuel nw s y0 y w tol call nw' s' y' r E.
  destruct (newton_log (ida_nlproblem prob) n _ _ _ _ _ _ _ _ _ _ _ _ E) as (es & k & Hlog & _). exists es. split; [exact Hlog|].
  destruct Hlog as (n1 & s1 & y1 & r1 & E1).
  assert (J0 : judged s (s, [])).
  { split; [reflexivity|]. split; [reflexivity|]. intros pre e post X. destruct pre; discriminate. }
  apply (newton_preserves _ _ _ (judged_preserved s) _ _ _ _ _ _ _ _ _ _ _ _ J0) in E1. apply E1.
Qed.

(** A successful solve: its last test, with index [m], accepted the update [x]. *)
Lemma converging_last c y f es y' maxit w tol : converging n maxit w tol c y f es y' ->
  exists front m x, es = front ++ [EvCtest m y' x tol w (Ok true)] /\ c <= m.
Proof.
  induction 1 as [c y f b x y' Hb Hx|c y f b x y1 f1 es y' Hb Hx Hm Hc (front & m & x' & IH & Hle)].
  - exists [EvSolve y b x (Ok tt)], c, x. auto.
  - exists (EvSolve y b x (Ok tt) :: EvCtest c y1 x tol w (Ok false) :: EvSys y1 f1 (Ok tt) :: front), m, x'.
    rewrite IH. split; [reflexivity|lia].
Qed.

Theorem C67_accepted : forall fuel nw (s : nlprob T LSt) y0 y w tol call nw' s' y',
  newton_solve (ida_nlproblem prob) n fuel nw s y0 y w tol call = Ret (nw', s', y', Ok tt) ->
  exists pre m x, log_of (ida_nlproblem prob) n fuel nw s y0 y w tol call (pre ++ [EvCtest m y' x tol w (Ok true)]) /\
    let '(first, saved) := track (oldnrm s, ss s) pre in
    let rate := conv_rate first m x w in
    m = 0 /\ ((norm_wrms x w <=? spt0001 * toldel s)%sc = true \/ (saved * norm_wrms x w <=? tol)%sc = true) \/
    m <> 0 /\ (sratemax <? rate)%sc = false /\ (rate / (sone - rate) * norm_wrms x w <=? tol)%sc = true.
Proof.
  intros fuel nw s y0 y w tol call nw' s' y' E.
  destruct (newton_ok (ida_nlproblem prob) n _ _ _ _ _ _ _ _ _ _ _ E) as (es & pre & f0 & su & last & Hlog & _ & Ees & _ & Hc).
  destruct (converging_last _ _ _ _ _ _ _ _ Hc) as (front & m & x & -> & _).
  destruct (C67_convergence_test _ _ _ _ _ _ _ _ _ _ _ _ E) as (es' & Hlog' & Hv).
  assert (es' = es).
  { destruct Hlog as (a & b & d & e & X). destruct Hlog' as (a' & b' & d' & e' & X'). congruence. }
  subst es'. exists (pre ++ EvSys y0 f0 (Ok tt) :: su ++ front), m, x.
  assert (Ees' : es = (pre ++ EvSys y0 f0 (Ok tt) :: su ++ front) ++ [EvCtest m y' x tol w (Ok true)]).
  { rewrite Ees, <- app_assoc. cbn [app]. rewrite <- app_assoc. reflexivity. }
  rewrite <- Ees'. split; [exact Hlog|].
  specialize (Hv _ _ _ Ees'). destruct (track _ _) as (first & saved). cbn [verdict_ok fst snd] in Hv.
  destruct Hv as (_ & _ & Hv). apply Hv. reflexivity.
Qed.
End C67.

(** Over the reals: what the accepted factor means.  If the later updates kept
    shrinking at the estimated rate, all of them together would stay within the
    tolerance. *)
Open Scope R_scope.
Theorem C67_remaining_updates : forall (first d tol : R) (m : nat) N,
  m <> 0%nat -> 0 <= d -> 0 <= first ->
  let rate := spowf (d / first) (srecip (sofnat m)) in
  (sratemax <? rate)%sc = false -> (rate / (sone - rate) * d <=? tol)%sc = true ->
  0 <= rate <= 9 / 10 /\ rsum N (fun j => rate ^ (S j) * d) <= tol.
Proof.
  intros first d tol m N Hm Hd Hf rate H1 H2. cbn [sltb sleb sratemax sdiv ssub smul sone ScalarR] in *.
  apply Rltb_false in H1. apply Rleb_true in H2.
  assert (Hr : 0 <= rate).
  { unfold rate. cbn [spowf ScalarR]. unfold Rpowf. destruct (Rlt_dec _ _); [|lra]. apply Rlt_le, exp_pos. }
  split; [lra|]. clearbody rate.
  assert (Hs : rsum N (fun j => rate ^ S j * d) = (rate - rate ^ S N) / (1 - rate) * d).
  { induction N as [|N IH]; [cbn; field; lra|]. cbn [rsum]. rewrite IH. cbn [pow]. field. lra. }
  rewrite Hs. eapply Rle_trans; [|exact H2]. apply Rmult_le_compat_r; [exact Hd|].
  unfold Rdiv. apply Rmult_le_compat_r; [apply Rlt_le, Rinv_0_lt_compat; lra|].
  pose proof (pow_le rate (S N) Hr). lra.
Qed.

(** ** C65 *)
(** Full statement: if more than 90% of the steps since the start of a solve call
    had nonlinear convergence failures (or more than 90% of the nonlinear
    iterations had linear ones), the performance monitor warns, at most ten times.
    It never warns: the iteration counter [ida_nni] it compares with is never
    advanced, so every check returns early. *)
Open Scope nat_scope.
Section C65.
Context {T LSt NSt : Type} `{Scalar T} `{LSolver T LSt} `{NLSolver T NSt}.
Variable prob : problem T.
Variable ewt_set : list T -> list T.
Hypothesis Hl : @nls_lawful T NSt _.
Variable c : @config T.
Hypothesis Hc : config_ok c.
Notation state := (ida T LSt NSt).
Notation tr st := (trace (lp (nlp st))).

Definition unwarned (o : option (T * nat)) (st : state) : Prop :=
  tlink prob c o st /\ nni0 (lp (nlp st)) = 0 /\ count is_warn (tr st) = 0.

Lemma nni_zero o (st : state) : tlink prob c o st -> nni st = 0.
Proof. intros L. apply (tl_cfg _ _ _ _ L). Qed.

Lemma unwarned_tried (st st1 : state) r ck : attempted prob st st1 r -> tried prob st st1 ck r ->
  nni0 (lp (nlp st)) = 0 -> count is_warn (tr st) = 0 -> nni0 (lp (nlp st1)) = 0 /\ count is_warn (tr st1) = 0.
Proof.
  intros (evs & A1 & A2 & _) Htr E1 E2. pose proof (tr_perf _ _ _ _ _ Htr) as P. pinj. split; [congruence|].
  rewrite A1. pose proof (call_in_callback prob ewt_set _ _ _ A2) as Hq. destruct (quiet_counts _ Hq) as (_ & _ & _ & _ & Q).
  rewrite !count_app, Q.
  change (count is_warn (CTry (tn (nlp st)) (hh st) (kk st) :: tr st)) with (count is_warn (tr st)). rewrite E2. destruct r as [|[[]| |]]; reflexivity.
Qed.

Lemma warn_step (st st' : state) evs : trace (lp (nlp st')) = evs ++ tr st -> count is_warn evs = 0 ->
  count is_warn (tr st) = 0 -> count is_warn (tr st') = 0.
Proof. intros -> E1 E2. rewrite count_app, E1, E2. reflexivity. Qed.

Theorem C65_never_warns : forall yy0 yp0 (st : state),
  reach prob ewt_set c yy0 yp0 st -> count is_warn (tr st) = 0.
Proof.
  intros yy0 yp0 st Hr.
  enough (X : unwarned None st) by apply X.
  refine (reach_life prob ewt_set Hl unwarned c yy0 yp0 st Hc _ _ _ _ _ Hr).
  - intros s E. split; [exact (tlink_new prob c yy0 yp0 s E)|].
    pose proof (new_fields prob _ _ _ E) as (_ & _ & _ & _ & _ & _ & _ & F8 & _ & F10 & _).
    unfold perf0 in F8. cbv zeta in F8. injection F8 as _ F8 _ _.
    change (tr (configure c s)) with (tr s). change (nni0 (lp (nlp (configure c s)))) with (nni0 (lp (nlp s))).
    rewrite F10. auto.
  - intros a b Ho (L & N & W) S. split; [exact (tlink_shell prob c a b Ho L S)|].
    pose proof (nni_zero _ _ L) as Z. pose proof (sh_perf _ _ _ S) as P. unfold perf0, perf_now in P. cbv zeta in P.
    split; [destruct P as [P|P]; injection P; congruence|]. rewrite (sh_warn _ _ _ S); congruence.
  - intros a b Ho (L & N & W) Hz S. split; [exact (tlink_lims prob c a b Ho L Hz S)|].
    destruct S as [(_ & ->)|(ts & _ & _ & ->)]; [auto|].
    assert (Hl' : limit_to_tstop a ts = set_hh (hh (limit_to_tstop a ts)) a).
    { unfold limit_to_tstop. destruct (_ <? _)%sc; [reflexivity|]. destruct a; reflexivity. }
    rewrite Hl'. auto.
  - intros a tout x Ho (L & N & W) Hz E. split; [exact (tlink_first prob ewt_set c a tout x Ho L Hz E)|].
    apply first_call_frame in E. cbv zeta in E. destruct E as (F1 & _ & _ & _ & F2).
    set (b := match x with inl (s, _) => s | inr s => s end) in *.
    apply fkeep_fields in F1. assert (P : perf0 b = perf0 a) by tauto. unfold perf0 in P. cbv zeta in P.
    split; [injection P; congruence|].
    destruct x as [(s & m)|s]; subst b.
    + destruct F2 as (_ & _ & _ & F2 & _). rewrite F2. exact W.
    + destruct F2 as (_ & _ & _ & _ & _ & _ & evs & F3 & F4 & _). apply (warn_step _ _ _ F3); [|exact W].
      eapply (count_none is_root); [exact F4|]. intros []; cbn; congruence.
  - split; [|split; [|split]].
    + intros s Ho (L & N & W) Hlim Hfr. split; [exact (tlink_begin prob ewt_set c s Ho L Hlim Hfr)|].
      destruct (init_fields s) as (_ & _ & _ & _ & _ & _ & _ & _ & _ & _ & _ & F12 & _ & _ & _ & _ & _ & _ & F19 & _).
      unfold perf0 in F12. cbv zeta in F12. split; [injection F12; congruence|]. rewrite F19. exact W.
    + intros s t0 nef st1 ck ek ek1 st' Hi (L & N & W) Et Htr Hat Hnf Hrt.
      split; [exact (tlink_retry prob ewt_set c s t0 nef st1 ck ek ek1 st' Hi L Et Htr Hat Hnf Hrt)|].
      rewrite (rt_nlp _ _ _ _ _ Hrt). exact (unwarned_tried _ _ _ _ Hat Htr N W).
    + intros s t0 nef st1 ck ek ek1 st2 Hi (L & N & W) Et Htr Hat Hcp.
      split; [exact (tlink_commit prob ewt_set c s t0 nef st1 ck ek ek1 st2 Hi L Et Htr Hat Hcp)|].
      unfold st_commit. cbn. rewrite (cp_nlp _ _ _ Hcp). exact (unwarned_tried _ _ _ _ Hat Htr N W).
    + intros s t0 nef st1 ck ek ek1 st' e Hi (L & N & W) Et Htr Hat Hg Hx.
      split; [exact (tlink_giveup prob ewt_set c s t0 nef st1 ck ek ek1 st' e Hi L Et Htr Hat Hg Hx)|].
      rewrite (gu_nlp _ _ _ _ Hg). exact (unwarned_tried _ _ _ _ Hat Htr N W).
Qed.
End C65.

(** The monitor stays silent in a life in which every linear solve reports a
    failure (the residual norms are fine, so the integration succeeds). *)
Open Scope float_scope.
Set Warnings "-inexact-float".
Definition failingLS : LSolver float (list nat) := {|
  ls_new := dense_new;
  ls_type := fun _ => Direct;
  ls_setup := dense_setup;
  ls_solve := fun piv a _ b tol => let* x := dense_solve piv a b tol in Ret (x, Err 0%nat);
  ls_num_iters := fun _ => 0%nat
|}.

Theorem C65_linear_failures_refuted :
  exists st : ida float (list nat) (newton float),
    @reach float (list nat) (newton float) _ failingLS newton20 robertsF roberts_ewt robertsD [1; 0; 0] [-0.04; 0.04; 0] st /\
    (nst st = 27 /\ 42 <= nre (nlp st) /\ ncfl (lp (nlp st)) = nre (nlp st) /\
     count is_warn (trace (lp (nlp st))) = 0)%nat.
Proof.
  assert (E : exists st0 st1, @ida_new float (list nat) (newton float) _ failingLS newton20 robertsF [1; 0; 0] [-0.04; 0.04; 0] = Ret st0 /\
    exists r, @api_call float (list nat) (newton float) _ failingLS newton20 robertsF roberts_ewt 600 100 (configure robertsD st0) (CallSolve 0.4 0 Normal) = Ret (st1, r) /\
    ((nst st1 =? 27) && (42 <=? nre (nlp st1)) && (ncfl (lp (nlp st1)) =? nre (nlp st1)) && (count is_warn (trace (lp (nlp st1))) =? 0))%nat = true).
  { do 2 eexists. split; [vm_compute; reflexivity|]. eexists. split; [vm_compute; reflexivity|]. vm_compute. reflexivity. }
  destruct E as (st0 & st1 & E0 & r & E1 & E2). exists st1. split.
  - eapply reach_call; [|exact E1]. constructor. exact E0.
  - rewrite !andb_true_iff, !Nat.eqb_eq, Nat.leb_le in E2. tauto.
Qed.

(** ** C44 *)
(** Full statement: if the linear solver cannot factor the iteration matrix, solve
    reports an error or retries.  It panics: the error is unwrapped (src/ida_ls.rs
    286), whatever the linear solver. *)
Theorem C44_setup_error_panics : forall (T LSt : Type) (S : Scalar T) (LS : LSolver T LSt) (prob : problem T)
    (l : lprob T LSt) y yp r ls m e,
  model_size prob <> 0%nat ->
  ls_setup (lp_ls l) (mkmat (model_size prob) (model_size prob) (p_jac prob szero (cj l) y yp r)) = Ret (ls, m, Err e) ->
  lp_setup prob l y yp r = Panic.
Proof.
  intros T LSt S LS prob l y yp r ls m e Hn E. unfold lp_setup.
  destruct (Nat.eqb_spec (model_size prob) 0) as [X|_]; [contradiction|]. cbv zeta.
  match goal with |- bind ?a _ = _ => change a with
    (ls_setup (lp_ls l) (mkmat (model_size prob) (model_size prob) (p_jac prob szero (cj l) y yp r))) end.
  rewrite E. reflexivity.
Qed.

(** Two equations that are both y1 + y2 = 0: every iteration matrix is singular. *)
Definition twice : problem float :=
  mkproblem 2 0 (fun _ y _ _ => vget y 0 + vget y 1) (fun _ _ _ _ _ _ _ => 1) (fun _ _ _ _ => 0).

Theorem C44_singular_matrix_refuted :
  exists st : fstate,
    reach twice (ewt_set_ss 1e-4 1e-6) (default_config twice) [1; -1] [0; 0] st /\
    (forall c y yp r, exists piv m, dense_setup [0; 0]%nat (mkmat 2 2 (p_jac twice 0 c y yp r)) = Ret (piv, m, Err 2%nat)) /\
    solve twice (ewt_set_ss 1e-4 1e-6) 100 100 st 1 0 Normal = Panic.
Proof.
  eexists. split; [constructor; vm_compute; reflexivity|]. split.
  - intros c y yp r. do 2 eexists. vm_compute. reflexivity.
  - vm_compute. reflexivity.
Qed.

(** ** Hypotheses met *)
(** In the Roberts life some attempt kept the Jacobian, and some attempt after the
    first step refreshed it. *)
Fixpoint pattern (jac : bool) (tr : list (event float)) : bool :=
  match tr with
  | [] => false
  | e :: past =>
      match past with
      | CRes _ _ _ :: CTry _ _ _ :: past' =>
          Bool.eqb (is_jac e) jac && negb (length (steps past') =? 0)%nat || pattern jac past
      | _ => pattern jac past
      end
  end.

Lemma pattern_split jac tr : pattern jac tr = true ->
  exists new e past t h k t1 y1 yp1, tr = new ++ e :: CRes t1 y1 yp1 :: CTry t h k :: past /\
    is_jac e = jac /\ steps past <> [].
Proof.
  induction tr as [|e past IH]; [discriminate|]. intros Hp.
  assert (Hc : pattern jac past = true \/ exists t h k t1 y1 yp1 p, past = CRes t1 y1 yp1 :: CTry t h k :: p /\
    is_jac e = jac /\ steps p <> []).
  { cbn [pattern] in Hp. destruct past as [|e1 p1]; [auto|]. destruct e1; auto. destruct p1 as [|e2 p2]; auto. destruct e2; auto.
    apply orb_true_iff in Hp as [Hp|Hp]; [|auto]. apply andb_true_iff in Hp as (P1 & P2). right.
    do 7 eexists. split; [reflexivity|]. split; [apply eqb_prop; exact P1|].
    intros X. rewrite X in P2. discriminate. }
  destruct Hc as [Hc|(t & h & k & t1 & y1 & yp1 & p & -> & H1 & H2)].
  - destruct (IH Hc) as (new & e' & p & t & h & k & t1 & y1 & yp1 & -> & R). exists (e :: new), e', p, t, h, k, t1, y1, yp1. auto.
  - exists [], e, p, t, h, k, t1, y1, yp1. auto.
Qed.

Example C42_hypotheses_met :
  config_ok robertsD /\ model_size robertsF <> 0%nat /\
  exists st : fstate, roberts_reach st /\ forall jac, exists new e past t h k t1 y1 yp1,
    trace (lp (nlp st)) = new ++ e :: CRes t1 y1 yp1 :: CTry t h k :: past /\ is_jac e = jac /\ steps past <> [].
Proof.
  split; [unfold config_ok; cbn; lia|]. split; [discriminate|].
  destruct (roberts_life_ok to_4 (fun st _ => pattern true (trace (lp (nlp st))) && pattern false (trace (lp (nlp st)))))
    as (st & rs & Hr & Ht); [vm_compute; reflexivity|].
  exists st. split; [exact Hr|]. apply andb_true_iff in Ht as (P1 & P2).
  intros []; apply pattern_split; assumption.
Qed.

(** A solve that needs two iterations, in a state of that life. *)
Example C67_hypotheses_met :
  exists (st : fstate) nw' s' y', roberts_reach st /\
    newton_solve (ida_nlproblem robertsF) 3 20 (nls st) (nlp st) [0; 0; 0] [0; 0; 0] (ewt (nlp st)) 1e-6 true
      = Ret (nw', s', y', Ok tt) /\ (nw_niters (nls st) + 2 <= nw_niters nw')%nat.
Proof.
  destruct (roberts_life_ok to_4 (fun st _ =>
    match newton_solve (ida_nlproblem robertsF) 3 20 (nls st) (nlp st) [0; 0; 0] [0; 0; 0] (ewt (nlp st)) 1e-6 true with
    | Ret (nw', _, _, Ok _) => (nw_niters (nls st) + 2 <=? nw_niters nw')%nat | _ => false end))
    as (st & rs & Hr & Ht); [vm_compute; reflexivity|].
  destruct (newton_solve (ida_nlproblem robertsF) 3 20 (nls st) (nlp st) [0; 0; 0] [0; 0; 0] (ewt (nlp st)) 1e-6 true)
    as [(((nw' & s') & y') & [[]|e])| |] eqn:E; try discriminate.
  exists st, nw', s', y'. split; [exact Hr|]. split; [exact E|]. apply Nat.leb_le. exact Ht.
Qed.

Example C67_remaining_met :
  (1 <> 0)%nat /\ (0 <= 1 /\ 0 <= 4)%R /\
  (sratemax <? spowf (1 / 4)%R (srecip (sofnat 1)))%sc = false.
Proof.
  split; [lia|]. split; [lra|]. unfold srecip. cbn [spowf sltb sratemax sdiv sone sofnat ScalarR].
  apply Rltb_false. unfold Rpowf. destruct (Rlt_dec 0 (1 / 4)); [|lra].
  replace (1 / INR 1)%R with 1%R by (cbn; field). rewrite Rpower_1 by lra. lra.
Qed.

(** ** C40: the system given to the nonlinear solver *)
(** One evaluation at the correction [c]: the recorded call, the arguments, the
    values of the model's residual at exactly these arguments. *)
Theorem C40_system (T LSt : Type) (S : Scalar T) (LS : LSolver T LSt) (prob : problem T) (s s' : nlprob T LSt) c r res :
  nlp_sys prob s c = Ret (s', r, res) ->
  res = Ok tt /\ tn s' = tn s /\ length r = model_size prob /\ savres s' = r /\
  trace (lp s') = CRes (tn s) (yy s') (yp s') :: trace (lp s) /\
  forall i, (i < model_size prob)%nat ->
    vget (yy s') i = (vget (yypredict s) i + vget c i)%sc /\
    vget (yp s') i = (vget (yppredict s) i + cj (lp s) * vget c i)%sc /\
    vget r i = p_res prob (tn s) (yy s') (yp s') i.
Proof.
  unfold nlp_sys. cbv zeta. intros E. injection E as <- <- <-. repeat split.
  - apply vtab_length.
  - exact (vget_vadd (model_size prob) (yypredict s) c i H).
  - exact (vget_vscaled_add (model_size prob) (yppredict s) (cj (lp s)) c i H).
  - exact (vget_vtab (model_size prob) _ i H).
Qed.

(** The Jacobian of that system: recorded with time 0 (C43), the current leading
    coefficient and the arguments of the latest evaluation; the matrix handed to
    the linear solver holds the model's Jacobian at exactly these arguments. *)
Theorem C40_jacobian (T LSt : Type) (S : Scalar T) (LS : LSolver T LSt) (prob : problem T) (s s' : nlprob T LSt) c r jbad res :
  model_size prob <> 0%nat -> nlp_setup prob s c r jbad = Ret (s', res) ->
  trace (lp s') = CJac szero (cj (lp s)) (yy s) (yp s) :: trace (lp s) /\ yy s' = yy s /\ yp s' = yp s /\
  exists ls m x, ls_setup (lp_ls (lp s)) (mkmat (model_size prob) (model_size prob)
      (p_jac prob szero (cj (lp s)) (yy s) (yp s) r)) = Ret (ls, m, Ok x) /\
    lp_ls (lp s') = ls /\ lp_matj (lp s') = m.
Proof.
  intros Hn. unfold nlp_setup, lp_setup. cbv zeta. destruct (Nat.eqb_spec (model_size prob) 0) as [X|_]; [contradiction|].
  intros E. apply bind_ret_inv in E. destruct E as (l & E & E2). injection E2 as <- <-.
  apply bind_ret_inv in E. destruct E as (((ls & m) & [x|e]) & E & E2); [|discriminate]. injection E2 as <-.
  split; [reflexivity|]. split; [reflexivity|]. split; [reflexivity|]. exists ls, m, x. split; [exact E|]. split; reflexivity.
Qed.

Example C40_system_met : exists (s s' : nlprob R (list nat)) r, nlp_sys (one_eq 2 3) s [1%R] = Ret (s', r, Ok tt) /\ length r = 1%nat.
Proof.
  exists (nlp_new (LSt := list nat) (one_eq 2 3) [1%R] [0%R]). do 2 eexists. split; [reflexivity|]. reflexivity.
Qed.
Print Assumptions C40_system.
Print Assumptions C40_jacobian.
Print Assumptions C42_refresh_policy.
Print Assumptions C42_refresh_window_R.
Print Assumptions C44_setup_error_panics.
Print Assumptions C44_singular_matrix_refuted.
Print Assumptions C65_never_warns.
Print Assumptions C65_linear_failures_refuted.
Print Assumptions C66_update_scaled.
Print Assumptions C66_error_factor.
Print Assumptions C67_convergence_test.
Print Assumptions C67_accepted.
Print Assumptions C67_remaining_updates.

Example C40_jacobian_met : exists (s s' : nlprob float (list nat)) r b, model_size robertsF <> 0%nat /\
  nlp_setup robertsF s [0; 0; 0] r false = Ret (s', Ok b).
Proof.
  exists (set_lp (set_cj 1000 (lp (nlp_new (LSt := list nat) robertsF [1; 0; 0] [-0.04; 0.04; 0])))
            (nlp_new (LSt := list nat) robertsF [1; 0; 0] [-0.04; 0.04; 0])).
  eexists. exists [0; 0; 0]. eexists. split; [discriminate|]. vm_compute. reflexivity.
Qed.
