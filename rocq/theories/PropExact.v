(** * PropExact: solutions that are linear in time are integrated exactly (C75),
      and the integration does not fail (C76): src/lib.rs, src/impl_solve.rs,
      nonlinear/src/newton.rs, linear/src/dense.rs, over the reals *)
Require Import List Arith Bool Lia Reals Lra.
Import ListNotations.
Require Import Verif.Base Verif.Scalar Verif.ScalarR Verif.Dense Verif.RSum Verif.DenseSpec Verif.Norms Verif.NormsR Verif.VecR
  Verif.Newton Verif.NewtonSpec Verif.IdaState Verif.IdaNls Verif.IdaCore Verif.IdaRoots Verif.IdaSolve Verif.IdaIo Verif.BaseFacts
  Verif.DenseSolveR Verif.NewtonFacts Verif.IdaFacts Verif.IdaLoops Verif.IdaStep Verif.IdaSpec Verif.IdaShell Verif.IdaReach Verif.IdaInv
  Verif.IdaCount Verif.IdaLife Verif.IdaTrace Verif.IdaAccept Verif.IdaStepR Verif.PolyR Verif.HistSpec Verif.IdaHist Verif.IdaHistLife
  Verif.IdaSafe Verif.IdaInterp Verif.IdaCall Verif.IdaCallR Verif.IdaLinear Verif.IdaExact Verif.PropSafe Verif.PropSolve Verif.PropIdaLife
  Verif.PropHist Verif.PropStepR Verif.PropReturn.
Open Scope R_scope.

(** ** The specification *)
(** The function a + b t on n components, and its derivative. *)
Definition affine (n : nat) (a b : nat -> R) (t : R) : list R := map (fun i => a i + b i * t) (seq 0 n).
Definition rates (n : nat) (b : nat -> R) : list R := map b (seq 0 n).
(** It solves F(t, y, y') = 0. *)
Definition solves (prob : problem R) (a b : nat -> R) : Prop :=
  forall t i, (i < model_size prob)%nat -> p_res prob t (affine (model_size prob) a b t) (rates (model_size prob) b) i = 0.

(** The first residual evaluation of a life got the derivative [v]. *)
Definition first_res (v : list R) (tr : list (event R)) : Prop :=
  exists new past t y, tr = new ++ CRes t y v :: past /\ Forall (fun e => is_res e = false) past.

Section Exact.
Context {LSt : Type} `{LSolver R LSt}.
Variable prob : problem R.
Variable ewt_set : list R -> list R.
Variable nfuel : nat.
Instance newton_pe : NLSolver R (newton R) := NewtonNLS nfuel.
Notation n := (model_size prob).
Notation state := (ida R LSt (newton R)).
Notation tr st := (trace (lp (nlp st))).
Variable okls : LSt -> Prop.
Hypothesis Hls : zero_ls n okls.
Hypothesis Hn : (1 <= n)%nat.
Variables a b : nat -> R.
Hypothesis Hsol : solves prob a b.
Variable g : @config R.
Hypothesis Hg : config_ok g.
Hypothesis Hep : 0 <= g_epcon g.
Notation sol := (affine n a b).
Notation dsol := (rates n b).
Notation lives := (@reach R LSt (newton R) _ _ (NewtonNLS nfuel) prob ewt_set g (sol (g_t0 g)) dsol).
Notation Hl := (newton_lawful nfuel).

(** The accepted times of the interpolation are distinct. *)
Lemma accepted_distinct (st : state) : lives st -> ncfn st = 0%nat -> steps (tr st) <> [] ->
  distinct (get_last_order st) (fun i => fst (nth i (points (g_t0 g) (sol (g_t0 g)) (tr st)) (0, []))).
Proof.
  intros Hr Hn0 Hs.
  destruct (reach_HJ prob ewt_set Hl g Hg _ _ st Hr) as (Jst & L).
  pose proof (reach_ord prob ewt_set Hl g _ _ st Hg Hr) as HO.
  destruct (L Hn0) as (_ & _ & _ & A). pose proof (tl_n _ _ _ _ (proj1 Jst)) as Ln.
  assert (Hz : nst st <> 0%nat) by (intros X; rewrite X in Ln; destruct (steps (tr st)); [congruence|discriminate]).
  destruct (A (or_introl Hz)) as (b0 & b1 & B1 & B2 & B3 & B4 & B5).
  set (hs := map apt (steps (tr st)) ++ [b0; b1]) in *.
  destruct (rl_h _ _ _ (proj2 Jst) (or_introl Hz)) as (Hh & _).
  destruct (h_ord _ _ _ B3 Hz) as (Hk1 & Hk2).
  destruct HO as (Harr & Hm & Hm2 & Hm3 & Hpos). destruct (Hpos Hz) as (Hku & Hkk & _).
  pose proof (hist_distinct prob hs st B3 Hh) as D. unfold get_last_order in *.
  assert (Q : forall i, (i <= kused st)%nat -> fst (nth i (points (g_t0 g) (sol (g_t0 g)) (tr st)) (0, [])) = tm hs i).
  { intros i Li. unfold tm, hs, points. destruct (Nat.eq_dec i (nst st)) as [->|Ne].
    - rewrite !app_nth2 by (rewrite map_length; lia). rewrite map_length, Ln, Nat.sub_diag. cbn [nth fst]. symmetry. exact B1.
    - rewrite !app_nth1 by (rewrite map_length; lia).
      reflexivity. }
  intros i j Li Lj Hij. rewrite (Q i Li), (Q j Lj). apply D; lia.
Qed.

(** A life that starts on the solution stays on it: every accepted step, every
    point at which the residual is evaluated, and the dense output.  No error test
    and no nonlinear solve fails.  [starts_with]: the first residual evaluation of
    the life gets the initial derivative; without it C75_spoiled_refuted. *)
Theorem C75_linear_exact (st : state) : lives st -> starts_with dsol (tr st) ->
  (forall p, In p (steps (tr st)) -> a_y p = sol (a_t p)) /\
  (forall t y yp, In (CRes t y yp) (tr st) -> y = sol t /\ yp = dsol) /\
  get_num_err_test_fails st = 0%nat /\ get_num_nonlin_solv_conv_fails st = 0%nat /\
  (steps (tr st) <> [] -> forall t s, get_solution prob st t = Ret (s, Ok tt) -> get_yy s = sol t /\ get_yp s = dsol).
Proof.
  intros Hr Hs.
  destruct (reach_EJ prob ewt_set nfuel okls Hls Hn a b Hsol g Hg Hep st Hr) as (_ & He).
  destruct (He Hs) as ([X1 X2 X3 X4 X5 X6] & X7). specialize (X7 eq_refl).
  assert (Q1 : forall p, In p (steps (tr st)) -> a_y p = sol (a_t p)).
  { intros p Ip. apply steps_in_at in Ip. rewrite Forall_forall in X5. exact (X5 _ Ip). }
  split; [exact Q1|]. split.
  { intros t y yp Ip. rewrite Forall_forall in X5. exact (X5 _ Ip). }
  split.
  { destruct (C53_counters_are_exact prob ewt_set Hl g _ _ st Hg Hr) as (_ & _ & _ & _ & ->).
    clear -X5. induction X5 as [|e t F _ IH]; [reflexivity|]. destruct e; cbn; try exact IH. destruct F. }
  split; [exact X1|]. intros Hne.
  destruct (C23_dense_output_partial prob ewt_set Hl g _ _ st Hg Hr X1 Hne (or_introl X7)) as (Hk & D).
  pose proof (accepted_distinct st Hr X1 Hne) as Hd.
  intros t s E.
  assert (Q : forall x, (x < n)%nat -> vget (get_yy s) x = a x + b x * t /\ vget (get_yp s) x = b x).
  { intros x Lx. destruct (D x Lx) as (p & (Pl & Pp) & Pe). destruct (Pe t s E) as (E1 & E2).
    assert (Pq : forall z, peval p z = peval [a x; b x] z).
    { set (f := fun i => fst (nth i (points (g_t0 g) (sol (g_t0 g)) (tr st)) (0, []))).
      apply (through_unique (get_last_order st) f (fun i => a x + b x * f i)); [exact Hd| |].
      - split; [exact Pl|]. intros i Li. unfold f.
        destruct (nth_error (points (g_t0 g) (sol (g_t0 g)) (tr st)) i) as [(ti & yi)|] eqn:En.
        2:{ apply nth_error_None in En. unfold points in En. rewrite app_length, map_length in En. cbn in En. lia. }
        rewrite (nth_error_nth _ _ _ En). cbn [fst]. rewrite (Pp i ti yi Li En (or_intror (no_early prob a b _ X5))).
        assert (yi = sol ti) as ->.
        { apply nth_error_In in En. unfold points in En. apply in_app_or in En. destruct En as [En|En].
          - apply in_map_iff in En. destruct En as (q & Eq & Iq). unfold apt in Eq. injection Eq as <- <-. exact (Q1 q Iq).
          - destruct En as [En|[]]. injection En as <- <-. reflexivity. }
        unfold affine. exact (vget_vtab n (fun i => a i + b i * ti) x Lx).
      - split; [cbn; lia|]. intros i Li. cbn. ring. }
    split; [rewrite <- (Rmult_1_l (vget _ _)); change (1 * nth x (get_yy s) 0 = a x + b x * t); rewrite E1, Pq; cbn; ring|].
    apply (uniqueness_limite (peval [a x; b x]) t).
    - eapply derivable_ext; [|exact E2]. intros z. apply Pq.
    - apply (derivable_ext (fun z => a x + b x * z)); [intros z; cbn; ring|apply lin_der]. }
  pose proof (reach_ord prob ewt_set Hl g _ _ st Hg Hr) as (Harr & Hm & Hm2 & Hm3 & _).
  pose proof (gs_eval prob st s t _ Harr ltac:(lia) E) as G.
  destruct (time_check st t) as [e|]; [destruct G as (_ & G); discriminate|]. destruct G as (_ & G1 & G2).
  assert (Ho : (1 <= kord st)%nat) by (unfold kord; destruct (kused st =? 0)%nat eqn:Ez; [lia|apply Nat.eqb_neq in Ez; lia]).
  split; apply (vec_ext _ _ n).
  - unfold get_yy. rewrite G1. unfold interp_y. replace (kord st + 1)%nat with (S (kord st)) by lia. apply length_vscaled_add.
  - apply vtab_length.
  - intros x Lx. rewrite (proj1 (Q x Lx)). symmetry. exact (vget_vtab n (fun i => a i + b i * t) x Lx).
  - unfold get_yp. rewrite G2. unfold interp_yp. destruct (kord st); [lia|]. apply length_vscaled_add.
  - apply vtab_length.
  - intros x Lx. rewrite (proj2 (Q x Lx)). symmetry. exact (vget_vtab n b x Lx).
Qed.

(** A call that succeeds has completed a step at some time. *)
Lemma ok_stepped (st : state) fuel rfuel tout tret itask st' t r : lives st ->
  solve prob ewt_set fuel rfuel st tout tret itask = Ret (st', t, Ok r) -> steps (tr st') <> [].
Proof.
  intros Hr E. assert (Hr' : lives st') by (eapply reach_next; eassumption).
  apply (nst_steps prob ewt_set Hl g _ _ st' Hg Hr').
  pose proof (reach_ord prob ewt_set Hl g _ _ st Hg Hr) as O.
  destruct (solve_run _ _ _ _ _ _ _ _ _ _ _ E) as [A|(s0 & s & nl & m & En & L & F)].
  - rewrite (answers_nst _ _ _ _ _ _ _ _ _ _ A). unfold answers in A.
    destruct (solve_start_cases _ _ _ _ _ _ _ _ A) as [(Hz & s & m & X & Q)|[(Hz & s & l & E1 & E2 & E3 & E4 & Q)|(Hz & _)]]; try discriminate.
    unfold task_set in Hz. destruct itask; exact Hz.
  - pose proof (enters_head _ _ _ _ _ _ _ _ En) as Hd.
    destruct (ends_nst prob ewt_set Hl _ _ _ _ _ _ _ _ _ _ _ _ O Hd L F) as (N1 & _).
    remember (Ok r) as r0 eqn:Er0. destruct F as [st' t r0 Ep|s1 s2 e st' t r0 Ep Es Ef|s1 s2 u st' t r0 Ep Es Ef Hr0]; [| |lia].
    + apply pre_step_shell in Ep. destruct Ep as (_ & _ & [(Q & _)|(_ & [Q|Q])]); congruence.
    + apply step_failed_shell in Ef. destruct Ef as (_ & Q & _). congruence.
Qed.

(** The vectors a call returns. *)
Theorem C75_outputs_exact (st : state) fuel rfuel tout tret itask st' t r :
  lives st -> solve prob ewt_set fuel rfuel st tout tret itask = Ret (st', t, Ok r) ->
  starts_with dsol (tr st') -> (itask = Normal /\ r = Success /\ tout <> tretlast st) \/ r = TStop ->
  get_yy st' = sol t /\ get_yp st' = dsol.
Proof.
  intros Hr E Hs Hi.
  assert (Hr' : lives st') by (eapply reach_next; eassumption).
  assert (K : exists s, get_solution prob st' t = Ret (s, Ok tt) /\ get_yy s = get_yy st' /\ get_yp s = get_yp st').
  { destruct Hi as [(-> & -> & Hne)| ->].
    - destruct (C45_outputs_at_tout prob ewt_set Hl g _ _ st fuel rfuel tout tret st' t Hg Hr E) as (-> & _ & [(Q & _)|(_ & Q)]).
      + contradiction.
      + exact Q.
    - destruct (C49_tstop_return prob ewt_set Hl g _ _ st fuel rfuel tout tret itask st' t Hg Hr E) as (_ & _ & _ & Q). exact Q. }
  destruct K as (s & Es & <- & <-).
  destruct (C75_linear_exact st' Hr' Hs) as (_ & _ & _ & _ & Q).
  exact (Q (ok_stepped _ _ _ _ _ _ _ _ _ Hr E) t s Es).
Qed.

(** ** C76 *)
(** The linear solver can set up every iteration matrix of the solution. *)
Definition sets_up : Prop := forall s t c, okls s -> c <> 0 -> exists s' m,
  ls_setup s (mkmat n n (p_jac prob 0 c (sol t) dsol (vzero n))) = Ret (s', m, Ok tt).
Hypothesis Hjac : sets_up.
Hypothesis Hfuel : (1 <= nfuel)%nat.

Notation EJ := (EJ prob okls a b g).
Notation FJ := (FJ prob okls a b g).
Notation line := (IdaExact.line prob a b).
Notation slope := (IdaExact.slope prob b).

(** The object is fresh, or it has completed a step. *)
Definition Ready (st : state) : Prop :=
  EJ None st /\ starts_with dsol (tr st) /\
  (nst st = 0%nat -> row (phi st) 1 = dsol) /\
  (nst st <> 0%nat -> Exists (fun e => is_res e = true) (tr st)).

Lemma starts_quiet v evs (tl : list (event R)) : Forall (fun e => is_res e = false) evs -> starts_with v tl -> starts_with v (evs ++ tl).
Proof.
  intros Hq Hs. induction Hq as [|e evs He _ IH]; [exact Hs|]. intros new past t y yp E Hp. destruct new as [|x new]; cbn in E.
  - injection E as E _. subst e. discriminate.
  - injection E as _ E. exact (IH new past t y yp E Hp).
Qed.

Lemma shell_starts (st st' : state) v : shell prob st st' -> starts_with v (tr st) ->
  starts_with v (tr st') /\
  (Exists (fun e => is_res e = true) (tr st) -> Exists (fun e => is_res e = true) (tr st')) /\
  phi st' = phi st /\ hh st' = hh st /\ nst st' = nst st.
Proof.
  intros S Hs. destruct (sh_trace _ _ _ S) as (evs & T1 & T2 & _). pose proof (core_fields _ _ (sh_core _ _ _ S)) as C.
  split; [rewrite T1; apply starts_quiet; [exact (quiet_res evs T2)|exact Hs]|].
  split; [rewrite T1; intros X; apply Exists_app; right; exact X|]. tauto.
Qed.

Lemma Ready_shell (st st' : state) : ordok st -> Ready st -> shell prob st st' -> Ready st'.
Proof.
  intros O (R1 & R2 & R3 & R4) S. split; [exact (EJ_shell prob okls a b g _ _ O R1 S)|].
  destruct (shell_starts _ _ _ S R2) as (Q1 & Q2 & Q3 & Q4 & Q5). rewrite Q3, Q5. auto.
Qed.

Lemma FJ_shell : i_shell prob FJ.
Proof.
  intros st st' O (R1 & R2 & R3 & R4) S. split; [exact (EJ_shell prob okls a b g _ _ O R1 S)|].
  destruct (shell_starts _ _ _ S R2) as (Q1 & Q2 & Q3 & Q4 & Q5). rewrite Q3, Q4, Q5. auto.
Qed.

Lemma FJ_lims : i_lims FJ.
Proof.
  intros p q O (R1 & R2 & R3 & R4) Hz S. split; [exact (EJ_lims prob okls a b g _ _ O R1 Hz S)|].
  destruct S as [(_ & ->)|(ts & _ & _ & ->)]; [auto|]. unfold limit_to_tstop. destruct (_ <? _)%sc; [|auto].
  split; [exact R2|]. split; [intros Q; contradiction|exact R4].
Qed.

Lemma ready_first (st s : state) tout : ordok st -> Ready st -> nst st = 0%nat ->
  first_call prob ewt_set st tout = Ret (inr s) -> FJ None s.
Proof.
  intros O (R1 & R2 & R3 & R4) Hz E. split; [exact (EJ_first prob ewt_set okls a b g Hep _ _ _ O R1 Hz E)|].
  apply first_call_frame in E. cbv zeta in E. destruct E as (F1 & _ & _ & _ & F5).
  destruct F5 as (F5 & _ & _ & _ & _ & _ & evs & T1 & T2 & _).
  assert (En : nst s = nst st) by (unfold fkeep in F1; cbv zeta in F1; congruence).
  split; [|split].
  - rewrite T1. apply starts_quiet; [|exact R2]. eapply Forall_impl; [|exact T2]. intros e. destruct e; cbn; trivial; discriminate.
  - intros _. destruct O as ((A & _) & _). assert (Hp : (1 < length (phi st))%nat) by lia. rewrite (F5 Hp). unfold row.
    rewrite nth_upd_eq by exact Hp. f_equal. exact (R3 Hz).
  - rewrite En. intros Q. contradiction.
Qed.

Definition GJ (o : option (R * nat)) (st : state) : Prop := FJ o st /\ nst st <> 0%nat.

Lemma GJ_shell : i_shell prob GJ.
Proof.
  intros st st' O (G1 & G2) S. split; [exact (FJ_shell _ _ O G1 S)|].
  pose proof (core_fields _ _ (sh_core _ _ _ S)) as C. replace (nst st') with (nst st) by (symmetry; tauto). exact G2.
Qed.
Lemma GJ_lims : i_lims GJ.
Proof.
  intros p q O (G1 & G2) Hz S. split; [exact (FJ_lims _ _ O G1 Hz S)|].
  destruct S as [(_ & ->)|(ts & _ & _ & ->)]; [exact G2|]. unfold limit_to_tstop. destruct (_ <? _)%sc; exact G2.
Qed.
Lemma GJ_first : i_first prob ewt_set GJ.
Proof. intros p tout x O (_ & G2) Hz. contradiction. Qed.
Notation FJin := (FJ_in prob ewt_set nfuel okls Hls Hn a b Hsol g Hfuel).
Notation FJtry := (FJ_try prob ewt_set nfuel okls Hls Hn a b Hsol g Hfuel).
Lemma GJ_in : i_in prob ewt_set GJ.
Proof.
  pose proof FJin as (F1 & F2 & F3 & F4). split; [|split; [|split]].
  - intros st O (G1 & G2) L Fr. split; [exact (F1 st O G1 L Fr)|].
    destruct (init_fields st) as (_ & _ & _ & _ & _ & _ & _ & E & _). rewrite E. exact G2.
  - intros st t0 nef st1 ck ek ek1 st' Hi (G1 & G2) Et Htr Hat Hne Hrt. exfalso.
    destruct (FJtry _ _ _ _ _ _ _ _ Hi G1 Et Htr Hat) as (Q & _). discriminate.
  - intros st t0 nef st1 ck ek ek1 st2 Hi (G1 & G2) Et Htr Hat Hcp.
    split; [exact (F3 st t0 nef st1 ck ek ek1 st2 Hi G1 Et Htr Hat Hcp)|].
    change (nst (st_commit prob ck st2)) with (nst st2).
    pose proof (cp_used _ _ _ Hcp) as U6. pose proof (cp_keep _ _ _ Hcp) as U7. pinj. lia.
  - intros st t0 nef st1 ck ek ek1 st' e Hi (G1 & G2) Et Htr Hat Hgu He. exfalso.
    destruct (FJtry _ _ _ _ _ _ _ _ Hi G1 Et Htr Hat) as (Q & _). discriminate.
Qed.

Lemma pieces_GJ (st s : state) : ordok st -> GJ None st -> pieces prob ewt_set st s -> GJ None s.
Proof.
  intros O G P. exact (proj2 (pieces_life prob ewt_set Hl GJ st s GJ_shell GJ_lims GJ_first GJ_in P O G)).
Qed.

Lemma Ready_GJ (st : state) : Ready st -> nst st <> 0%nat -> GJ None st.
Proof. intros (R1 & R2 & R3 & R4) Hz. split; [|exact Hz]. split; [exact R1|]. split; [exact R2|]. split; [intros Q; contradiction|exact R4]. Qed.

Lemma enters_FJ rfuel (st s0 : state) tout tret itask : ordok st -> Ready st ->
  enters prob ewt_set rfuel st tout tret itask s0 -> FJ None s0.
Proof.
  intros O Rd En. pose proof (task_set_shell prob st tout itask) as S0.
  destruct (Nat.eq_dec (nst st) 0) as [Hz|Hz].
  2:{ exact (proj1 (pieces_GJ st s0 O (Ready_GJ _ Rd Hz) (hd_pieces _ _ _ _ _ _ (enters_head _ _ _ _ _ _ _ _ En)))). }
  unfold enters in En.
  assert (Hz1 : nst (task_set st tout itask) = 0%nat) by (unfold task_set; destruct itask; exact Hz).
  pose proof (Ready_shell _ _ O Rd S0) as R1. pose proof (shell_ord _ _ _ S0 O) as O1.
  destruct (solve_start_cases _ _ _ _ _ _ _ _ En) as [(_ & s & m & X & Q)|[(_ & s & l & E1 & E2 & E3 & E4 & Q)|(Q & _)]]; [discriminate| |contradiction].
  injection Q as ->. pose proof (ready_first _ _ _ O1 R1 Hz1 E1) as F.
  assert (Os : ordok s).
  { apply (piece_ord prob ewt_set Hl (task_set st tout itask)); [exact O1|]. eapply p_first_ok; eassumption. }
  exact (FJ_shell _ _ Os F E4).
Qed.

Lemma passed (st s s1 : state) tout itask tret nl : ordok st -> head prob ewt_set tout itask st s -> FJ None s ->
  pre_step prob ewt_set s tret nl = Ret (inr s1) ->
  ordok s1 /\ FJ None s1 /\ limited s1 /\ fresh prob ewt_set s1 /\ pieces prob ewt_set st s1.
Proof.
  intros O Hd F Ep. pose proof (pre_step_shell _ _ _ _ _ _ Ep) as (S1 & _).
  pose proof (pieces_ord prob ewt_set Hl _ _ O (hd_pieces _ _ _ _ _ _ Hd)) as Os.
  split; [exact (shell_ord _ _ _ S1 Os)|]. split; [exact (FJ_shell _ _ Os F S1)|].
  split; [exact (shell_limited _ _ _ S1 (hd_lim _ _ _ _ _ _ Hd))|].
  split; [exact (shell_fresh _ _ _ _ S1 (hd_fresh _ _ _ _ _ _ Hd))|].
  exact (pieces_shell _ _ _ _ _ (hd_pieces _ _ _ _ _ _ Hd) S1).
Qed.

Lemma stepped (st s s1 s2 : state) tout itask tret nl rfuel r : ordok st -> head prob ewt_set tout itask st s -> FJ None s ->
  pre_step prob ewt_set s tret nl = Ret (inr s1) -> step prob rfuel s1 = Ret (s2, r) ->
  ordok s2 /\ FJ None s2 /\ (nst s2 <> 0%nat \/ exists e, r = Err e).
Proof.
  intros O Hd F Ep Es. destruct (passed _ _ _ _ _ _ _ O Hd F Ep) as (O1 & F1 & L1 & R1 & P1).
  split; [exact (pieces_ord prob ewt_set Hl _ _ O (head_step _ _ _ _ _ _ _ _ _ _ _ _ Hd Ep Es))|].
  split; [exact (step_FJ prob ewt_set nfuel okls Hls Hn a b Hsol g Hfuel _ _ _ _ O1 F1 L1 R1 Es)|].
  destruct (step_nst prob Hl _ _ _ _ O1 Es) as (N & _). destruct r as [u|e]; [left; lia|right; exists e; reflexivity].
Qed.

Lemma posted (s2 s' : state) tout itask tret t rfuel r : ordok s2 -> FJ None s2 -> nst s2 <> 0%nat ->
  post_step prob rfuel s2 tout tret itask = Ret (s', t, r) -> FJ None s' /\ nst s' <> 0%nat.
Proof.
  intros O F Hz E. destruct (post_step_shell _ _ _ _ _ _ _ _ _ E) as (x & S1 & D).
  pose proof (GJ_shell _ _ O (conj F Hz) S1) as G1. pose proof (shell_ord _ _ _ S1 O) as O1.
  assert (OL : forall p q : state, ordok p -> GJ None p -> lims p q -> ordok q /\ GJ None q).
  { intros p q Op Gp L. split; [|exact (GJ_lims _ _ Op Gp (proj2 Gp) L)].
    apply (piece_ord prob ewt_set Hl p); [exact Op|]. apply p_lims; [exact (proj2 Gp)|exact L]. }
  destruct D as [(_ & L & _)|(_ & [S2|(y & L & S2)])].
  - exact (proj2 (OL _ _ O1 G1 L)).
  - exact (GJ_shell _ _ O1 G1 S2).
  - destruct (OL _ _ O1 G1 L) as (O2 & G2). exact (GJ_shell _ _ O2 G2 S2).
Qed.

Lemma loops_FJ rfuel (st s0 s : state) tout tret itask nl : ordok st -> FJ None s0 -> head prob ewt_set tout itask st s0 ->
  loops prob ewt_set rfuel tout itask tret s0 s nl -> FJ None s.
Proof.
  intros O F Hd L. induction L as [|s nl s1 s2 u s' L IH Ep Es Eq]; [exact F|].
  destruct (head_loop _ _ _ _ _ _ _ _ _ _ Hd L) as (Hd2 & _).
  destruct (stepped _ _ _ _ _ _ _ _ _ _ O Hd2 IH Ep Es) as (O2 & F2 & [N2|(e & Q)]); [|discriminate].
  exact (proj1 (posted _ _ _ _ _ _ _ _ O2 F2 N2 Eq)).
Qed.

Lemma exists_first (tr : list (event R)) v : Exists (fun e => is_res e = true) tr -> starts_with v tr -> first_res v tr.
Proof.
  induction tr as [|e tr IH]; intros X S; [inversion X|].
  destruct (Exists_dec (fun e => is_res e = true) tr (fun e => bool_dec (is_res e) true)) as [D|D].
  - destruct (IH D (starts_past _ [e] _ S)) as (new & past & t & y & E & F). exists (e :: new), past, t, y. rewrite E. auto.
  - assert (F : Forall (fun e => is_res e = false) tr).
    { apply Forall_forall. intros q Iq. destruct (is_res q) eqn:Eq; [|reflexivity]. exfalso. apply D, Exists_exists. eauto. }
    apply Exists_cons in X. destruct X as [X|X]; [|contradiction]. destruct e; try discriminate.
    rewrite (S [] tr _ _ _ eq_refl F) in *. exists [], tr, t, y. auto.
Qed.
Lemma first_starts (tr : list (event R)) v : first_res v tr -> starts_with v tr /\ Exists (fun e => is_res e = true) tr.
Proof.
  intros (new & past & t & y & -> & F). split; [exact (starts_first v new t y past F)|].
  apply Exists_app. right. constructor. reflexivity.
Qed.

(** A call on an object that is fresh, or whose life started with the initial
    derivative: it returns, no step of it fails, and the life goes on as it was. *)
Theorem C76_linear_never_fails (st : state) fuel tout tret itask :
  lives st ->
  (exists st0, @ida_new R LSt (newton R) _ _ newton_pe prob (sol (g_t0 g)) dsol = Ret st0 /\ st = configure g st0) \/
  first_res dsol (tr st) ->
  (0 < g_mxstep g < fuel)%nat ->
  exists N st' t r, (forall rfuel, (N <= rfuel)%nat -> solve prob ewt_set fuel rfuel st tout tret itask = Ret (st', t, r)) /\
    (forall e, r = Err e -> ~ step_error e) /\
    starts_with dsol (tr st') /\ (steps (tr st') <> [] -> first_res dsol (tr st')).
Proof.
  intros Hr Hor Hm.
  pose proof (reach_ord prob ewt_set Hl g _ _ st Hg Hr) as O.
  pose proof (reach_J prob ewt_set Hl g Hg _ _ st Hr) as Js.
  pose proof (reach_wf prob ewt_set Hl (fun _ _ => True) (any_preserved prob (fun _ _ => True) (fun _ _ => I)) g _ _ st Hg I Hr) as W.
  pose proof (reach_tlink prob ewt_set Hl g Hg _ _ st Hr) as Lk.
  pose proof (reach_EJ prob ewt_set nfuel okls Hls Hn a b Hsol g Hg Hep st Hr) as He.
  assert (Rd : Ready st).
  { destruct Hor as [(st0 & E0 & ->)|F].
    - pose proof (new_fields prob _ _ _ E0) as F. destruct F as (_ & _ & _ & F4 & _ & _ & _ & _ & _ & F10 & _).
      assert (T0 : tr (configure g st0) = []) by exact F10.
      split; [exact He|]. rewrite T0. split; [|split].
      + intros new past t y yp Q. destruct new; discriminate.
      + intros _. unfold ida_new in E0. destruct (_ && _) eqn:Eb; [|discriminate]. apply ret_inj in E0. subst st0. reflexivity.
      + intros Q. exfalso. apply Q. exact F4.
    - destruct (first_starts _ _ F) as (F1 & F2). split; [exact He|]. split; [exact F1|]. split; [|intros _; exact F2].
      intros Hz. exfalso. destruct (proj2 He F1) as (X & _). pose proof (ex_first _ _ _ _ _ X Hz) as Y.
      apply Exists_exists in F2. destruct F2 as (q & Iq & Hq). rewrite Forall_forall in Y. specialize (Y q Iq). congruence. }
  destruct (solve_settles prob ewt_set Hl g Hg st O Js W (FJ None)) with (fuel := fuel) (tout := tout) (tret := tret) (itask := itask)
    as (N & ((st' & t) & r) & E); [| | |apply Hm|exact Lk|apply Hm|].
  - intros rf to te it s En. exact (enters_FJ _ _ _ _ _ _ O Rd En).
  - intros to it s te nl s1 Hd F Ep. destruct (passed _ _ _ _ _ _ _ O Hd F Ep) as (O1 & F1 & L1 & R1 & P1).
    pose proof (wf_cs _ _ _ (inside_wf prob ewt_set Hl st W s1 P1)) as Hcs.
    destruct (step_returns prob ewt_set nfuel okls Hls Hn a b Hsol g Hfuel Hjac s1 O1 F1 L1 R1 Hcs) as (x & u & Q).
    exists 1%nat, (x, Ok u). exact Q.
  - intros rf to it s te nl s1 s2 u s' t Hd F Ep Es Eq.
    destruct (stepped _ _ _ _ _ _ _ _ _ _ O Hd F Ep Es) as (O2 & F2 & [N2|(e & Q)]); [|discriminate].
    exact (proj1 (posted _ _ _ _ _ _ _ _ O2 F2 N2 Eq)).
  - exists N, st', t, r. split; [exact E|]. specialize (E (Nat.max N 1) ltac:(lia)).
    assert (Hr' : lives st') by (eapply reach_next; eassumption). split.
    + intros e -> Hse. destruct (solve_step_fails prob ewt_set Hl g _ _ _ _ _ _ _ _ _ _ _ Hg Hr Hse E)
        as (s0 & s & nl & s1 & s2 & En & L & Ep & Es & _).
      pose proof (enters_head _ _ _ _ _ _ _ _ En) as Hd0. pose proof (enters_FJ _ _ _ _ _ _ O Rd En) as F0.
      pose proof (loops_FJ _ _ _ _ _ _ _ _ O F0 Hd0 L) as F. destruct (head_loop _ _ _ _ _ _ _ _ _ _ Hd0 L) as (Hd & _).
      destruct (passed _ _ _ _ _ _ _ O Hd F Ep) as (O1 & F1 & L1 & R1 & P1).
      pose proof (wf_cs _ _ _ (inside_wf prob ewt_set Hl st W s1 P1)) as Hcs.
      destruct (step_returns prob ewt_set nfuel okls Hls Hn a b Hsol g Hfuel Hjac s1 O1 F1 L1 R1 Hcs) as (x & u & Q).
      specialize (Q (Nat.max N 1) ltac:(lia)). pose proof (eq_trans (eq_sym Q) Es) as Y. discriminate.
    + assert (K : starts_with dsol (tr st') /\ (nst st' <> 0%nat -> Exists (fun e => is_res e = true) (tr st'))).
      { destruct (solve_run _ _ _ _ _ _ _ _ _ _ _ E) as [A|(s0 & s & nl & m & En & L & F)].
        - unfold answers in A. pose proof (task_set_shell prob st tout itask) as S0.
          pose proof (Ready_shell _ _ O Rd S0) as R1. pose proof (shell_ord _ _ _ S0 O) as O1.
          destruct (Nat.eq_dec (nst (task_set st tout itask)) 0) as [Hz|Hz].
          + destruct (solve_start_cases _ _ _ _ _ _ _ _ A) as [(_ & s & m & X & Q)|[(_ & s & l & E1 & E2 & E3 & E4 & Q)|(Q & _)]]; [|discriminate|contradiction].
            injection Q as -> _ _. apply first_call_frame in X. cbv zeta in X. destruct X as (F1 & _ & _ & _ & _ & _ & _ & F5 & _).
            rewrite F5. change (tr (task_set st tout itask)) with (trace (lp (nlp (task_set st tout itask)))).
            split; [exact (proj1 (proj2 R1))|]. intros Q. exfalso. apply Q. unfold fkeep in F1. cbv zeta in F1. congruence.
          + pose proof (solve_start_pieces _ _ _ _ _ _ _ _ A) as (P & _).
            destruct (pieces_GJ _ _ O1 (Ready_GJ _ R1 Hz) P) as ((_ & G2 & _ & G4) & _). auto.
        - pose proof (enters_head _ _ _ _ _ _ _ _ En) as Hd0. pose proof (enters_FJ _ _ _ _ _ _ O Rd En) as F0.
          pose proof (loops_FJ _ _ _ _ _ _ _ _ O F0 Hd0 L) as Fs. destruct (head_loop _ _ _ _ _ _ _ _ _ _ Hd0 L) as (Hd & _).
          pose proof (pieces_ord prob ewt_set Hl _ _ O (hd_pieces _ _ _ _ _ _ Hd)) as Os.
          assert (FJ None st') as (_ & K2 & _ & K4); [|auto].
          destruct F as [st' t r Ep|s1 s2 e st' t r Ep Es Ef|s1 s2 u st' t r Ep Es Ef Hrr].
          + apply pre_step_shell in Ep. exact (FJ_shell _ _ Os Fs (proj1 Ep)).
          + destruct (stepped _ _ _ _ _ _ _ _ _ _ O Hd Fs Ep Es) as (O2 & F2 & _).
            apply step_failed_shell in Ef. exact (FJ_shell _ _ O2 F2 (proj1 Ef)).
          + destruct (stepped _ _ _ _ _ _ _ _ _ _ O Hd Fs Ep Es) as (O2 & F2 & [N2|(e & Q)]); [|discriminate].
            exact (proj1 (posted _ _ _ _ _ _ _ _ O2 F2 N2 Ef)). }
      destruct K as (K1 & K2). split; [exact K1|]. intros Hne. apply exists_first; [|exact K1]. apply K2.
      exact (proj1 (nst_steps prob ewt_set Hl g _ _ st' Hg Hr') Hne).
Qed.
End Exact.

(** With the dense solver: the iteration matrices along the solution have
    independent columns. *)
Theorem C76_linear_never_fails_dense (prob : problem R) ewt_set nfuel a b g (st : ida R (list nat) (newton R)) fuel tout tret itask :
  let N := NewtonNLS nfuel in
  let n := model_size prob in
  (1 <= n)%nat -> (1 <= nfuel)%nat -> solves prob a b -> config_ok g -> 0 <= g_epcon g ->
  (forall t c, c <> 0 -> independent_cols n n (p_jac prob 0 c (affine n a b t) (rates n b) (vzero n))) ->
  @reach R (list nat) (newton R) _ _ N prob ewt_set g (affine n a b (g_t0 g)) (rates n b) st ->
  (exists st0, @ida_new R (list nat) (newton R) _ _ N prob (affine n a b (g_t0 g)) (rates n b) = Ret st0 /\ st = configure g st0) \/
  first_res (rates n b) (trace (lp (nlp st))) ->
  (0 < g_mxstep g < fuel)%nat ->
  exists K st' t r, (forall rfuel, (K <= rfuel)%nat ->
      @solve R (list nat) (newton R) _ _ N prob ewt_set fuel rfuel st tout tret itask = Ret (st', t, r)) /\
    (forall e, r = Err e -> ~ step_error e) /\
    starts_with (rates n b) (trace (lp (nlp st'))) /\
    (steps (trace (lp (nlp st'))) <> [] -> first_res (rates n b) (trace (lp (nlp st')))).
Proof.
  intros N n Hn Hf Hs Hg He Hj Hr Hor Hm.
  apply (C76_linear_never_fails prob ewt_set nfuel (fun piv => length piv = n) (dense_zero n Hn) Hn a b Hs g Hg He); try assumption.
  intros s t c Ls Hc. destruct (proj2 (dense_setup_ok_iff n n _ s (le_n n) Ls) (Hj t c Hc)) as (piv & F & E).
  exists piv, F. exact E.
Qed.
Print Assumptions C75_linear_exact.
Print Assumptions C75_outputs_exact.
Print Assumptions C76_linear_never_fails.
Print Assumptions C76_linear_never_fails_dense.

(** Hypotheses met: y1' = 1, y2 = 2 y1 from (0, 0) with the default settings and
    the crate's solvers; a fresh object. *)
Definition lin2 : problem R := mkproblem 2 0
  (fun _ y yp i => match i with O => vget yp 0 - 1 | _ => vget y 1 - 2 * vget y 0 end)
  (fun _ c _ _ _ i j => match i, j with O, O => c | O, _ => 0 | _, O => -2 | _, _ => 1 end) (fun _ _ _ _ => 0).
Definition lin_a (_ : nat) : R := 0.
Definition lin_b (i : nat) : R := match i with O => 1 | _ => 2 end.

Lemma lin2_solves : solves lin2 lin_a lin_b.
Proof.
  intros t i Li. destruct i as [|i]; cbn.
  - ring.
  - unfold vget. cbn. unfold lin_a. ring.
Qed.
Lemma lin2_independent t c : c <> 0 -> independent_cols 2 2 (p_jac lin2 0 c (affine 2 lin_a lin_b t) (rates 2 lin_b) (vzero 2)).
Proof.
  intros Hc x Hx.
  pose proof (Hx 0%nat ltac:(lia)) as H0. pose proof (Hx 1%nat ltac:(lia)) as H1. cbn in H0, H1.
  assert (X0 : x 0%nat = 0).
  { assert (Q : c * x 0%nat = 0) by lra. apply Rmult_integral in Q. destruct Q; [contradiction|assumption]. }
  intros j Lj. destruct j as [|[|j]]; [exact X0|rewrite X0 in H1; lra|lia].
Qed.

Example C76_hypotheses_met : exists st0 : ida R (list nat) (newton R),
  (1 <= model_size lin2)%nat /\ solves lin2 lin_a lin_b /\ config_ok (default_config lin2) /\ 0 <= g_epcon (default_config lin2) /\
  (forall t c, c <> 0 -> independent_cols 2 2 (p_jac lin2 0 c (affine 2 lin_a lin_b t) (rates 2 lin_b) (vzero 2))) /\
  @reach R (list nat) (newton R) _ _ (NewtonNLS 1) lin2 (fun v => v) (default_config lin2) (affine 2 lin_a lin_b 0) (rates 2 lin_b)
    (configure (default_config lin2) st0) /\
  @ida_new R (list nat) (newton R) _ _ (NewtonNLS 1) lin2 (affine 2 lin_a lin_b 0) (rates 2 lin_b) = Ret st0 /\
  (0 < g_mxstep (default_config lin2) < 501)%nat.
Proof.
  eexists. split; [cbn; lia|]. split; [exact lin2_solves|]. split; [unfold config_ok; cbn; lia|]. split; [cbn; lra|].
  split; [exact lin2_independent|]. split; [eapply reach_new; reflexivity|]. split; [reflexivity|cbn; lia].
Qed.
