(** * PropHistBad: where the step history goes wrong
      (C38, C39 and the limits of C20-C23, C41, C69)

    Executions on binary64; with the crate's Newton and dense linear solver
    except where a reported nonlinear failure is needed, which Newton never
    produces.  C38_scaled says over the reals how far the initial value is off
    after failed attempts. *)
Require Import List Arith Bool Lia Floats Reals Lra Psatz.
Import ListNotations.
Require Import Verif.Base Verif.Scalar Verif.ScalarR Verif.ScalarF Verif.Dense Verif.Norms Verif.NormsR Verif.Newton Verif.NewtonSpec Verif.IdaState
  Verif.IdaNls Verif.IdaCore Verif.IdaRoots Verif.IdaSolve Verif.IdaIo Verif.BaseFacts Verif.NewtonFacts
  Verif.IdaFacts Verif.IdaLoops Verif.IdaStep Verif.IdaSpec Verif.IdaShell Verif.IdaReach Verif.IdaInv
  Verif.IdaCount Verif.IdaLife Verif.IdaTrace Verif.IdaAccept Verif.IdaStepR Verif.IdaSafe Verif.IdaInterp Verif.IdaCall Verif.IdaCallR
  Verif.Script Verif.Witness Verif.PropSafe Verif.PropSolve Verif.ExampleR Verif.PropStepR Verif.PropStop
  Verif.RSum Verif.VecR Verif.PolyR Verif.HistSpec Verif.IdaHist Verif.IdaHistLife Verif.InterpR Verif.IdaNoFail Verif.IdaRow0 Verif.PropHist.
Set Warnings "-inexact-float".
Open Scope R_scope.

(** ** C38 *)
Section Scaled.
Context {LSt NSt : Type} `{LSolver R LSt} `{NLSolver R NSt}.
Variable prob : problem R.
Variable ewt_set : list R -> list R.
Hypothesis Hl : @nls_lawful R NSt _.
Notation n := (model_size prob).
Notation state := (ida R LSt NSt).
Notation tr st := (trace (lp (nlp st))).

Lemma init_first (s : state) : hh (st_init s) = hh s /\ phi (st_init s) = phi s /\ nst (st_init s) = nst s.
Proof. unfold st_init. cbv zeta. destruct (_ =? _)%nat; auto. Qed.

(** [st] is an attempt of the step begun in [s], after [nef] failed ones. *)
Definition attempt_of (c : @config R) (yy0 yp0 : list R) (s st : state) (nef : nat) : Prop :=
  exists s0, reach prob ewt_set c yy0 yp0 s0 /\ pieces prob ewt_set s0 s /\ limited s /\ fresh prob ewt_set s /\
    tries prob (tn (nlp s)) (st_init s) st nef.

Lemma tries_scaled c yy0 yp0 (s st : state) nef : config_ok c -> attempt_of c yy0 yp0 s st nef -> nst s = 0%nat ->
  nst st = 0%nat /\ hh s <> 0 /\ hh st <> 0 /\ Rabs (hh st) <= (9 / 10) ^ nef * Rabs (hh s) /\
  forall x, (x < n)%nat -> vget (row (phi st) 0) x = hh st / hh s * vget (row (phi s) 0) x.
Proof.
  intros Hc (s0 & Hr & Hp & Hlim & Hf & Ht) Hz. destruct (init_first s) as (I1 & I2 & I3).
  induction Ht as [|sa nef s1 ck ek ek1 sb Ht IH Et Htr Hnf Hrt].
  - rewrite I1, I2, I3. assert (Hnz : hh s <> 0).
    { destruct (attempt_HJ prob ewt_set Hl c yy0 yp0 (st_init s) 0 Hc) as (_ & (J0 & _)).
      { exists s0, s. repeat (split; [assumption|]). constructor. }
      rewrite <- I1. apply (rl_h _ _ _ (proj2 J0)). right. discriminate. }
    split; [exact Hz|]. split; [exact Hnz|]. split; [exact Hnz|]. split; [cbn; lra|]. intros x _. field. exact Hnz.
  - destruct IH as (K1 & K2 & K3 & K4 & K5).
    destruct (attempt_HJ prob ewt_set Hl c yy0 yp0 sa nef Hc) as (Is & _).
    { exists s0, s. auto. }
    pose proof (rt_keep _ _ _ _ _ Hrt) as U3. pose proof (tr_cnt _ _ _ _ _ Htr) as U4.
    assert (En : nst sb = nst sa /\ nst s1 = nst sa) by (pinj; split; congruence). destruct En as (En & En1).
    destruct (rt_hist _ _ _ _ _ Hrt) as (ps & ph & G1 & _ & G2). destruct G2 as (_ & G2); [congruence|].
    pose proof (restored_row0 prob _ _ _ _ _ _ Is Htr G1) as G3.
    pose proof (rt_hh _ _ _ _ _ Hrt) as Hh. pose proof (tr_h _ _ _ _ _ Htr) as Kh. injection Kh as Ka Kb Kc. rewrite Ka in Hh. cbn in Hh.
    assert (Hq : / 4 <= rr sb <= 9 / 10).
    { destruct nef as [|q].
      - destruct (rt_rr0 _ _ _ _ _ Hrt eq_refl) as (w & ->). cbn. split; [eapply Rle_trans; [|apply Rmax_l]; lra|].
        apply Rmax_lub; [lra|apply Rmin_l].
      - rewrite (rt_rr1 _ _ _ _ _ Hrt) by lia. cbn. lra. }
    split; [congruence|]. split; [exact K2|]. split; [rewrite Hh; nra|]. split.
    + rewrite Hh, Rabs_mult, (Rabs_right (rr sb)) by lra. rewrite Nat.add_1_r. cbn [pow]. 
      assert (0 <= (9 / 10) ^ nef * Rabs (hh s)) by (apply Rmult_le_pos; [apply pow_le; lra|apply Rabs_pos]).
      pose proof (Rabs_pos (hh sa)). nra.
    + intros x Lx. rewrite G2, nth_map_row.
      2:{ pose proof (rt_arrays _ _ _ _ _ Hrt) as Ar. unfold arrays in Ar. rewrite G2, map_length in Ar. lia. }
      rewrite G3, vget_vscale by exact Lx. rewrite (K5 x Lx), Hh. cbn. field. exact K2.
Qed.

(** The attempts of the very first step: the line they extrapolate starts from
    the initial value multiplied by the quotient of the step sizes, which is
    at most 9/10 to the number of failed attempts. *)
Theorem C38_scaled c yy0 yp0 (s st st1 : state) nef ck ek ek1 r :
  config_ok c -> attempt_of c yy0 yp0 s st nef -> nst s = 0%nat -> early_fail (tr s) = false ->
  try_step prob st = Ret (st1, ck, ek, ek1, r) -> get_num_nonlin_solv_conv_fails st = 0%nat ->
  0 <= hh st / hh s <= (9 / 10) ^ nef /\
  forall x, (x < n)%nat -> exists p, (length p <= 2)%nat /\
    peval p (g_t0 c) = hh st / hh s * nth x yy0 0 /\
    nth x (yypredict (nlp st1)) 0 = peval p (g_t0 c + hh st) /\
    derivable_pt_lim (peval p) (g_t0 c + hh st) (nth x (yppredict (nlp st1)) 0).
Proof.
  intros Hc Ha Hz He Et Hn. destruct (tries_scaled c yy0 yp0 s st nef Hc Ha Hz) as (K1 & K2 & K3 & K4 & K5).
  destruct Ha as (s0 & Hr & Hpc & Hlim & Hf & Ht).
  assert (Hi0 : attempt_in prob ewt_set c yy0 yp0 (st_init s) 0).
  { exists s0, s. repeat (split; [assumption|]). constructor. }
  assert (Ha : attempt_in prob ewt_set c yy0 yp0 st nef) by (exists s0, s; auto).
  assert (Hn0 : get_num_nonlin_solv_conv_fails (st_init s) = 0%nat).
  { unfold get_num_nonlin_solv_conv_fails in *. clear - Hn Ht. revert Hn. induction Ht as [|sa m s1 ck ek ek1 sb Ht IH Et Htr Hm Hrt]; [auto|].
    pose proof (rt_keep _ _ _ _ _ Hrt) as U. pose proof (tr_cnt _ _ _ _ _ Htr) as V. intros Hn. apply IH. pinj. congruence. }
  destruct (init_first s) as (I1 & I2 & I3).
  assert (Hy : row (phi s) 0 = yy0).
  { destruct (attempt_hist prob ewt_set Hl c yy0 yp0 _ 0 Hc Hi0 Hn0) as (_ & _ & _ & _ & Q & _).
    rewrite <- I2. apply Q; [congruence|]. rewrite <- He. unfold st_init. cbv zeta. destruct (_ =? _)%nat.
    - change (early_fail (begin_ev s :: tr s) = early_fail (tr s)). cbn. destruct (steps (tr s)); rewrite orb_comm; reflexivity.
    - change (early_fail (begin_ev s :: tr s) = early_fail (tr s)). cbn. destruct (steps (tr s)); rewrite orb_comm; reflexivity. }
  rewrite Hy in K5.
  destruct (attempt_hist prob ewt_set Hl c yy0 yp0 st nef Hc Ha Hn) as (Hi & Jst & Hev & Hra & _ & b0 & b1 & Hp).
  destruct (try_facts prob Hl _ _ _ _ _ _ Hi Et) as (Htr & Hat).
  destruct (try_bdf prob ewt_set c yy0 st st1 _ nef ck r b0 b1 Hi Jst Hp Hev Hra Htr Hat) as (Ac & Hh & Hnx & _).
  pose proof (tl_n _ _ _ _ (proj1 Jst)) as Ln. rewrite K1 in Ln.
  assert (Hs : steps (tr st) = []) by (destruct (steps (tr st)); [reflexivity|discriminate]).
  set (hs := map apt (steps (tr st)) ++ [b0; b1]) in *.
  destruct Hp as (B1 & B2 & B3 & B4 & B5 & B6). fold hs in B3, B4.
  destruct (is_zero _ Hi K1) as (Hk & _). pose proof (h_now _ _ _ B3) as Hnow.
  assert (T0 : tm hs 0 = g_t0 c) by (unfold hs; rewrite Hs; exact B1).
  split.
  { assert (Hq : 0 < hh st / hh s).
    { assert (0 < hh st * hh s).
      { rewrite <- I1. destruct (attempt_hist prob ewt_set Hl c yy0 yp0 (st_init s) 0 Hc Hi0 Hn0) as (_ & J0 & _).
        eapply (tries_sign prob); [|exact Ht]. apply (rl_h _ _ _ (proj2 J0)). right. discriminate. }
      replace (hh st / hh s) with (hh st * hh s * (/ hh s * / hh s)) by (field; exact K2).
      apply Rmult_lt_0_compat; [assumption|]. pose proof (Rinv_neq_0_compat _ K2). nra. }
    split; [lra|]. rewrite <- (Rabs_right (hh st / hh s)) by lra. unfold Rdiv. rewrite Rabs_mult, Rabs_inv.
    apply (Rmult_le_reg_r (Rabs (hh s))); [apply Rabs_pos_lt; exact K2|].
    rewrite Rmult_assoc, Rinv_l by (apply Rabs_no_R0; exact K2). lra. }
  intros x Lx.
  assert (Hd : distinct 1 (tm hs)).
  { pose proof (hist_distinct prob hs st B3 Hh) as D. intros i j Li Lj. apply D; lia. }
  destruct (npoly_through (tm hs) (yv hs x) 1 Hd) as (p & (Pl & Pn) & Pe). exists p.
  destruct (predicted prob hs _ _ _ _ B3 Hh Ac Htr x Lx) as (P1 & P2). rewrite Hk in P1, P2. rewrite T0 in P1, P2.
  split; [exact Pl|]. split; [|split].
  - rewrite <- T0, (Pn 0%nat) by lia. pose proof (h_phi _ _ _ B3 0%nat x ltac:(lia) ltac:(lia) Lx) as Q. cbn in Q.
    rewrite Rmult_1_l in Q. rewrite <- Q. exact (K5 x Lx).
  - rewrite Pe. exact P1.
  - eapply derivable_ext; [|exact P2]. intros t. symmetry. apply Pe.
Qed.
End Scaled.
Print Assumptions C38_scaled.

(** A life whose first attempt fails the error test. *)
Section Hundred.
Definition s100 : script R := [Some [100]].
Local Instance NLS100 : NLSolver R (script R) := ScriptNLS s100.
Notation state := (ida R (list nat) (script R)).
Notation cf := (configR None 1).
Notation reached := (reach scalarR ewtR cf [0] [1]).
Notation tr st := (trace (lp (nlp st))).
Let Hl : @nls_lawful R (script R) _ := script_lawful s100.

Lemma no_early (l : list (event R)) : count (@is_fail R) l = 0%nat -> early_fail l = false.
Proof.
  unfold count. induction l as [|e l IH]; [reflexivity|]. cbn. destruct (is_fail e) eqn:E; cbn; [lia|]. intros H.
  rewrite (IH H). destruct (steps l); reflexivity.
Qed.

Lemma hundred_good : Forall (fun o => o <> None) (nls_new (model_size scalarR) MAXNLSIT : script R).
Proof. constructor; [discriminate|constructor]. Qed.

Lemma hundred_rejects (st s1 : state) nef ck ek ek1 r l : attempt_in scalarR ewtR cf [0] [1] st nef -> nst st = 0%nat ->
  nls st = Some [100] :: l -> ewt (nlp st) = ewtR [0] -> suppressalg st = false ->
  try_step scalarR st = Ret (s1, ck, ek, ek1, r) -> r <> Ok tt.
Proof.
  intros Hin Hn Hls Hw Hsup Et ->.
  assert (Hnc : get_num_nonlin_solv_conv_fails st = 0%nat) by
    exact (attempt_ncfn scalarR ewtR Hl _ (script_never_fails scalarR s100) hundred_good _ _ _ _ _ (configR_ok None 1) Hin).
  destruct (attempt_hist scalarR ewtR Hl _ _ _ _ _ (configR_ok None 1) Hin Hnc) as (Is & Js & _).
  pose proof (is_arr _ Is) as Ia. pose proof (is_kk _ Is) as Ik. pose proof (is_max _ Is) as Im.
  assert (Hh : hh st <> 0) by (apply (rl_h _ _ _ (proj2 Js)); right; discriminate).
  pose proof (try_step_spec scalarR Hl _ _ _ _ _ _ Ia ltac:(lia) Et) as Htr.
  destruct (tr_res _ _ _ _ _ Htr) as (_ & _ & _ & _ & Ht). apply Rleb_true in Ht. change sone with 1 in Ht.
  destruct (C20_coefficients_partial scalarR ewtR Hl _ _ _ _ _ _ _ _ _ _ (configR_ok None 1) Hin Et Hnc) as (K1 & K2 & _).
  destruct (is_zero _ Is Hn) as (Hk & _). destruct (K2 1%nat ltac:(lia)) as (_ & _ & K3 & _).
  pose proof (tl_n _ _ _ _ (proj1 Js)) as Ln. rewrite Hn in Ln.
  assert (Hs : steps (tr st) = []) by (destruct (steps (tr st)); [reflexivity|discriminate]).
  rewrite Hs in K3. cbn [sizes rsum nth map] in K3.
  assert (Hck : 1 / 2 <= ck).
  { rewrite (tr_ck _ _ _ _ _ Htr). unfold ck_of. rewrite Hk. change (vget (alpha s1) 1) with (nth 1 (alpha s1) 0). rewrite K3.
    replace (0 + hh st + hh st) with (2 * hh st) by ring.
    replace (hh st / (2 * hh st)) with (1 / 2) by (field; exact Hh). apply Rmax_r. }
  destruct (script_try s100 _ _ _ _ _ _ _ Et) as (_ & _ & P3). destruct (P3 _ _ Hls) as (Ee & _).
  pose proof (tr_ewt _ _ _ _ _ Htr) as W. injection W as W _.
  pose proof (tr_cfg _ _ _ _ _ Htr) as Cf. apply cfg_fields in Cf. destruct Cf as (_ & Cf & _).
  rewrite Ee, W, Hw, Cf, Hsup in Ht. unfold wrms_norm in Ht. rewrite norm_wrms_eq in Ht.
  unfold wrms in Ht. cbn [length rsum nth ewtR ewt_set_ss map] in Ht. cbn in Ht. rewrite Rabs_R0 in Ht.
  replace ((0 + 100 * (1 / (1 * 0 + 1)) * (100 * (1 / (1 * 0 + 1)))) / 1) with (100 * 100) in Ht by field.
  rewrite sqrt_square in Ht by lra. nra.
Qed.

Lemma hundred_retry : exists (s st s1 : state) nef ck ek ek1 r, attempt_of scalarR ewtR cf [0] [1] s st nef /\ nst s = 0%nat /\
  early_fail (tr s) = false /\ try_step scalarR st = Ret (s1, ck, ek, ek1, r) /\ get_num_nonlin_solv_conv_fails st = 0%nat /\ (1 <= nef)%nat.
Proof.
  destruct (new_ready s100 None 1 ltac:(right; eexists; reflexivity)) as (st0 & R0 & U0 & N0).
  destruct (call_step s100 None 1 ltac:(lra) ltac:(discriminate) st0 (proj1 R0) (or_introl U0))
    as (st1 & t1 & r1 & sh & s & s2 & o & _ & Bg & Es & _).
  destruct Bg as (_ & Ep & B1 & _ & _ & B2 & _ & Pc & Li & Fr & B3 & B4 & B5 & B6 & _).
  pose proof (reach_ord scalarR ewtR Hl cf [0] [1] st0 (configR_ok None 1) (proj1 R0)) as O.
  pose proof (pieces_ord scalarR ewtR Hl _ _ O Pc) as Os.
  destruct (step_spec scalarR Hl _ _ _ _ Os Es) as (sta & nef & sx & ck & ek & ek1 & rx & Ht & Et & Htr & Hc).
  assert (Hin : attempt_in scalarR ewtR cf [0] [1] sta nef) by (exists st0, s; split; [apply R0|auto]).
  exists s, sta, sx, nef, ck, ek, ek1, rx.
  assert (Z0 : nls st0 = s100 /\ tr st0 = [] /\ netf st0 = 0%nat).
  { destruct U0 as (z & Ez & ->). destruct (new_exists s100) as (z' & Ez' & A & _). rewrite Ez in Ez'. injection Ez' as <-.
    pose proof (new_fields _ _ _ _ Ez) as Nf. split; [exact A|]. split; [change (tr z = []); tauto|change (netf z = 0%nat); tauto]. }
  destruct Z0 as (Z0 & Z1 & Z2).
  split; [exists st0; split; [apply R0|auto]|]. split; [congruence|].
  assert (He : early_fail (tr s) = false).
  { destruct (pieces_ext scalarR ewtR Hl _ _ O Pc) as (_ & evs & X1 & X2 & X3 & X4 & X5 & X6 & _).
    assert (Nf : netf s = 0%nat).
    { destruct (pre_step_shell _ _ _ _ _ _ Ep) as (S1 & _). pose proof (sh_core _ _ _ S1) as C1. unfold core in C1. pinj. congruence. }
    rewrite Nf in X5. apply no_early. rewrite X1, Z1, app_nil_r. lia. }
  split; [exact He|]. split; [exact Et|].
  assert (Hnc : forall m st, attempt_in scalarR ewtR cf [0] [1] st m -> get_num_nonlin_solv_conv_fails st = 0%nat).
  { intros m st Ha. exact (attempt_ncfn scalarR ewtR Hl _ (script_never_fails scalarR s100) hundred_good _ _ _ _ _ (configR_ok None 1) Ha). }
  split; [exact (Hnc _ _ Hin)|].
  destruct nef as [|nef]; [|lia]. exfalso. inversion Ht; subst; [|lia].
  destruct (init_first s) as (I1 & I2 & I3).
  assert (Hy : row (phi s) 0 = [0]).
  { destruct (attempt_hist scalarR ewtR Hl cf [0] [1] _ 0 (configR_ok None 1) Hin (Hnc _ _ Hin)) as (_ & _ & _ & _ & Q & _).
    rewrite <- I2. apply Q; [congruence|]. rewrite <- He. unfold st_init. cbv zeta.
    destruct (_ =? _)%nat; change (early_fail (begin_ev s :: tr s) = early_fail (tr s)); cbn; destruct (steps (tr s)); rewrite orb_comm; reflexivity. }
  assert (I : nls (st_init s) = nls s /\ suppressalg (st_init s) = suppressalg s /\ ewt (nlp (st_init s)) = ewt (nlp s))
    by (unfold st_init; cbv zeta; destruct (_ =? _)%nat; auto).
  destruct I as (I4 & I5 & I6).
  pose proof (hundred_rejects _ _ _ _ _ _ _ [] Hin ltac:(congruence) ltac:(rewrite I4, B3, Z0; reflexivity) ltac:(rewrite I6, B6, Hy; reflexivity) ltac:(congruence) Et) as Hno.
  destruct Hc as [(-> & _)|(e & -> & _ & [(_ & _ & D & _)|((m & ->) & _)])]; [congruence|lia|].
  destruct (script_try s100 _ _ _ _ _ _ _ Et) as (_ & _ & P3). destruct (P3 [100] []) as (_ & P4); [rewrite I4, B3, Z0; reflexivity|].
  exact (P4 m eq_refl).
Qed.
End Hundred.

Example C38_scaled_hypotheses_met : exists c yy0 yp0 (s st st1 : ida R (list nat) (script R)) nef ck ek ek1 r,
  @nls_lawful R (script R) NLS100 /\ config_ok c /\ @attempt_of (list nat) (script R) _ NLS100 scalarR ewtR c yy0 yp0 s st nef /\
  nst s = 0%nat /\ early_fail (trace (lp (nlp s))) = false /\
  @try_step R (list nat) (script R) _ _ NLS100 scalarR st = Ret (st1, ck, ek, ek1, r) /\
  get_num_nonlin_solv_conv_fails st = 0%nat /\ (1 <= nef)%nat.
Proof.
  destruct hundred_retry as (s & st & s1 & nef & ck & ek & ek1 & r & H).
  exists (configR None 1), [0], [1], s, st, s1, nef, ck, ek, ek1, r. split; [apply script_lawful|]. split; [apply configR_ok|]. exact H.
Qed.

Close Scope R_scope.
Open Scope float_scope.

(** y' = 1000000 t, y(0) = 1: the solution is never below 1. *)
Definition rampF : problem float := mkproblem 1 0
  (fun t _ yp _ => vget yp 0 - 1e6 * t) (fun _ cj _ _ _ _ _ => cj) (fun _ _ _ _ => 0).
Definition ramp_ewt : list float -> list float := ewt_set_sv 1e-4 [1e-6].

Definition ramp_test (st : fstate) (_ : list (@reply float)) : bool :=
  (netf st =? 4)%nat &&
  match steps (trace (lp (nlp st))) with
  | [a] => (0 <? a_t a) && (a_k a =? 1)%nat && match a_y a with [y] => y <? 0.01 | _ => false end
  | _ => false end.
Lemma ramp_ok : life_test rampF ramp_ewt (default_config rampF) [1] [0] 600 100 [CallSolve 1 0 OneStep] ramp_test = true.
Proof. vm_compute. reflexivity. Qed.

(** With the crate's Newton and dense solver, default settings and consistent
    initial values, the first accepted value is below 1/100: the failed
    attempts have scaled the initial value away. *)
Theorem C38_refuted : exists (st : fstate) (t y : float),
  reach rampF ramp_ewt (default_config rampF) [1] [0] st /\
  p_res rampF 0 [1] [0] 0%nat = 0 /\
  get_num_err_test_fails st = 4%nat /\
  (exists h, steps (trace (lp (nlp st))) = [mkastep t [y] h 1]) /\
  (0 <? t) = true /\ (y <? 0.01) = true.
Proof.
  destruct (life_test_ok _ _ _ _ _ _ _ _ _ ramp_ok) as (st & rs & Hr & Ht). unfold ramp_test in Ht.
  apply andb_prop in Ht. destruct Ht as (H1 & Ht). apply Nat.eqb_eq in H1.
  destruct (steps (trace (lp (nlp st)))) as [|[t y h k] [|? ?]] eqn:E; try discriminate.
  cbn [a_t a_y a_k] in Ht.
  apply andb_prop in Ht. destruct Ht as (Ht & H4). apply andb_prop in Ht. destruct Ht as (H2 & H3).
  apply Nat.eqb_eq in H3. subst k. destruct y as [|y [|? ?]]; try discriminate.
  exists st, t, y. split; [exact Hr|]. split; [vm_compute; reflexivity|]. split; [exact H1|].
  split; [exists h; exact E|]. auto.
Qed.
Print Assumptions C38_refuted.

(** y = t*t up to t = 1/4, then a jump no step can cross. *)
Definition jumpF : problem float := mkproblem 1 0
  (fun t y _ _ => vget y 0 - (if 0.25 <? t then 1e9 else t * t)) (fun _ _ _ _ _ _ _ => 1) (fun _ _ _ _ => 0).
Definition jump_ewt : list float -> list float := ewt_set_sv 1e-1 [1e-1].
Definition near (x y d : float) : bool := (x - y <? d) && (y - x <? d).

Definition jump_test (st : fstate) (_ : list (@reply float)) : bool :=
  match solve jumpF jump_ewt 600 100 st 10 0 OneStep with
  | Ret (st', t, Err EFmt) =>
      (kused st =? 2)%nat && (kused st' =? 2)%nat && (nst st' =? nst st)%nat &&
      match get_solution jumpF st 0.24 with
      | Ret (s1, Ok tt) => near (vget (get_yy s1) 0) 0.0576 4e-5
      | _ => false end &&
      match get_solution jumpF st' 0.24 with
      | Ret (s2, Ok tt) => negb (near (vget (get_yy s2) 0) 0.0576 4e-5)
      | _ => false end &&
      match steps (trace (lp (nlp st'))) with
      | a :: b :: c :: l => (a_t a =? 0.25) && (a_t b <? 0.24) &&
         forallb (fun p => near (vget (a_y p) 0) (a_t p * a_t p) 1e-15) [a; b; c]
      | _ => false end
  | _ => false end.
Lemma jump_ok : life_test jumpF jump_ewt (default_config jumpF) [0] [0] 600 100 (repeat (CallSolve 10 0 OneStep) 9) jump_test = true.
Proof. vm_compute. reflexivity. Qed.

(** Nine steps are taken, the tenth call fails. *)
Lemma jump_life : exists (st st' s1 s2 : fstate) t,
  reach jumpF jump_ewt (default_config jumpF) [0] [0] st /\
  solve jumpF jump_ewt 600 100 st 10 0 OneStep = Ret (st', t, Err EFmt) /\
  get_last_order st = 2%nat /\ get_last_order st' = 2%nat /\ get_num_steps st' = get_num_steps st /\
  get_solution jumpF st 0.24 = Ret (s1, Ok tt) /\ near (vget (get_yy s1) 0) 0.0576 4e-5 = true /\
  get_solution jumpF st' 0.24 = Ret (s2, Ok tt) /\ near (vget (get_yy s2) 0) 0.0576 4e-5 = false /\
  (exists a b c l, steps (trace (lp (nlp st'))) = a :: b :: c :: l /\ (a_t a =? 0.25) = true /\ (a_t b <? 0.24) = true /\
    forallb (fun p => near (vget (a_y p) 0) (a_t p * a_t p) 1e-15) [a; b; c] = true).
Proof.
  destruct (life_test_ok _ _ _ _ _ _ _ _ _ jump_ok) as (st & rs & Hr & Ht). unfold jump_test in Ht.
  destruct (solve jumpF jump_ewt 600 100 st 10 0 OneStep) as [((st' & t) & [|[| |]])| |] eqn:Es; try discriminate.
  repeat (apply andb_prop in Ht; let H := fresh "H" in destruct Ht as (Ht & H)).
  destruct (get_solution jumpF st 0.24) as [(s1 & [[]|])| |] eqn:E1; try discriminate.
  destruct (get_solution jumpF st' 0.24) as [(s2 & [[]|])| |] eqn:E2; try discriminate.
  destruct (steps (trace (lp (nlp st')))) as [|a [|b [|c l]]] eqn:E3; try discriminate.
  exists st, st', s1, s2, t.
  repeat match goal with H : (_ =? _)%nat = true |- _ => apply Nat.eqb_eq in H end.
  repeat match goal with H : andb _ _ = true |- _ => apply andb_prop in H; destruct H end.
  repeat match goal with H : negb _ = true |- _ => apply negb_true_iff in H end.
  do 5 (split; [first [assumption|reflexivity]|]). do 4 (split; [first [assumption|reflexivity]|]).
  exists a, b, c, l. auto.
Qed.

(** C69: a failed call changes what [get_solution] answers within the last
    step. *)
Theorem C69_dense_output_refuted : exists (st st' s1 s2 : fstate) t e,
  reach jumpF jump_ewt (default_config jumpF) [0] [0] st /\
  solve jumpF jump_ewt 600 100 st 10 0 OneStep = Ret (st', t, Err e) /\
  get_last_order st' = get_last_order st /\ get_num_steps st' = get_num_steps st /\
  get_solution jumpF st 0.24 = Ret (s1, Ok tt) /\ get_solution jumpF st' 0.24 = Ret (s2, Ok tt) /\
  get_yy s1 <> get_yy s2.
Proof.
  destruct jump_life as (st & st' & s1 & s2 & t & H1 & H2 & H3 & H4 & H5 & H6 & H7 & H8 & H9 & _).
  exists st, st', s1, s2, t, EFmt. repeat (split; [first [assumption|congruence]|]).
  intros E. rewrite E in H7. congruence.
Qed.
Print Assumptions C69_dense_output_refuted.

(** C23: the three latest accepted points lie on y = t*t and the last step is
    of order 2, but [get_solution] does not answer from that parabola. *)
Theorem C23_refuted : exists (st s : fstate),
  reach jumpF jump_ewt (default_config jumpF) [0] [0] st /\ get_last_order st = 2%nat /\
  (exists a b c l, steps (trace (lp (nlp st))) = a :: b :: c :: l /\ (a_t a =? 0.25) = true /\ (a_t b <? 0.24) = true /\
    forallb (fun p => near (vget (a_y p) 0) (a_t p * a_t p) 1e-15) [a; b; c] = true) /\
  get_solution jumpF st 0.24 = Ret (s, Ok tt) /\ near (vget (get_yy s) 0) 0.0576 4e-5 = false.
Proof.
  destruct jump_life as (st & st' & s1 & s2 & t & H1 & H2 & H3 & H4 & H5 & H6 & H7 & H8 & H9 & H10).
  exists st', s2. split; [|auto].
  eapply (reach_call _ _ _ _ _ 600 100 _ (CallSolve 10 0 OneStep)); [exact H1|]. unfold api_call. rewrite H2. reflexivity.
Qed.
Print Assumptions C23_refuted.

(** C20 for a nonlinear solver that does report failures, which the crate's
    Newton never does: the fourth and the fifth call fail, the sixth one takes
    a step.  The two latest steps have size 1, so the second entry of [psi]
    should be 2. *)
Definition plainF : problem float := mkproblem 1 0
  (fun _ _ _ _ => 0) (fun _ _ _ _ _ _ _ => 1) (fun _ _ _ _ => 0).
Definition retry_script : script float :=
  [Some [0.125]; Some [0.25]; Some [0.125]; None; None; Some [0.125]; Some [0.125]].
Definition retryNLS : NLSolver float (script float) := ScriptNLS retry_script.
Definition retry_config := mkconfig 2 500 10 10 0.75 1 0.33 0 None false [false] [].
Definition retry_test (st : ida float (list nat) (script float)) (_ : list (@reply float)) : bool :=
  (kused st =? 2)%nat && (vget (psi st) 0 =? 1) && (vget (psi st) 1 =? 1.75) && (ncfn st =? 2)%nat &&
  match steps (trace (lp (nlp st))) with
  | a :: b :: l => (a_h a =? 1) && (a_h b =? 1)
  | _ => false end.
Lemma retry_ok : @life_test (script float) retryNLS plainF (ewt_set_sv 1 [1]) retry_config [1] [1] 600 100
  (repeat (CallSolve 10 0 OneStep) 6) retry_test = true.
Proof. vm_compute. reflexivity. Qed.

Theorem C20_after_failures_refuted : exists (st : ida float (list nat) (script float)) a b l,
  @nls_lawful float (script float) retryNLS /\ config_ok retry_config /\
  @reach float (list nat) (script float) _ _ retryNLS plainF (ewt_set_sv 1 [1]) retry_config [1] [1] st /\
  get_last_order st = 2%nat /\ get_num_nonlin_solv_conv_fails st = 2%nat /\
  steps (trace (lp (nlp st))) = a :: b :: l /\ (a_h a =? 1) = true /\ (a_h b =? 1) = true /\
  (vget (psi st) 0 =? 1) = true /\ (vget (psi st) 1 =? 1.75) = true.
Proof.
  destruct (@life_test_ok (script float) retryNLS _ _ _ _ _ _ _ _ _ retry_ok) as (st & rs & Hr & Ht). unfold retry_test in Ht.
  repeat (apply andb_prop in Ht; let H := fresh "H" in destruct Ht as (Ht & H)).
  destruct (steps (trace (lp (nlp st)))) as [|a [|b l]] eqn:E; try discriminate.
  exists st, a, b, l.
  repeat match goal with H : (_ =? _)%nat = true |- _ => apply Nat.eqb_eq in H end.
  apply andb_prop in H. destruct H.
  split; [apply script_lawful|]. split; [unfold config_ok; cbn; lia|]. auto 10.
Qed.
Print Assumptions C20_after_failures_refuted.
