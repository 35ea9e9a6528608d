(** * PropUnits: the integrator does not depend on the units (C78) *)
Require Import List Arith Bool Reals Lia Lra.
Import ListNotations.
Require Import Verif.Base Verif.BaseFacts Verif.Scalar Verif.ScalarR Verif.RSum Verif.Dense Verif.Norms Verif.Newton
  Verif.IdaState Verif.IdaNls Verif.IdaCore Verif.IdaRoots Verif.IdaSolve Verif.IdaIo Verif.IdaFacts Verif.IdaReach Verif.IdaInv
  Verif.NormsR Verif.DenseSpec Verif.DenseSolveR Verif.PropSolve Verif.IdaExact Verif.PropExact Verif.PropFirst Verif.PropLinear
  Verif.IdaStepR Verif.IdaShell Verif.IdaCall Verif.IdaCount Verif.IdaSpec Verif.PropStop Verif.PropRetry Verif.Units Verif.UnitsRel Verif.UnitsSim Verif.UnitsDense.
Open Scope R_scope.

(** ** Error weights
    The weights of the crate's tolerance controls, with the absolute
    tolerances given in the new units. *)
Definition weights_in (u : units) (ewt_set ewt_set' : list R -> list R) : Prop :=
  forall y, ewt_set' (y_in u y) = w_in u (ewt_set y).

Lemma recip_in a r t y : a <> 0 -> srecip (r * Rabs (a * y) + Rabs a * t) = / Rabs a * srecip (r * Rabs y + t).
Proof.
  intros Ha. unfold srecip. cbn [sdiv sone ScalarR]. rewrite Rabs_mult.
  replace (r * (Rabs a * Rabs y) + Rabs a * t) with (Rabs a * (r * Rabs y + t)) by ring.
  unfold Rdiv. rewrite Rinv_mult. ring.
Qed.

Lemma map_as_vtab {A} (f : A -> R) (l : list A) d : map f l = vtab (length l) (fun i => f (nth i l d)).
Proof.
  unfold vtab. induction l as [|x l IH]; cbn [map length seq]; [reflexivity|]. f_equal.
  rewrite IH, <- seq_shift, map_map. reflexivity.
Qed.

(** One absolute tolerance: all components in the same unit (up to sign). *)
Theorem scalar_weights_in u rtol atol c : 0 < c -> (forall i, Rabs (u_comp u i) = c) ->
  weights_in u (ewt_set_ss rtol atol) (ewt_set_ss rtol (c * atol)).
Proof.
  intros Hc E y. unfold ewt_set_ss, y_in, w_in. rewrite (map_as_vtab _ (sv (u_comp u) y) 0), (map_as_vtab _ y 0).
  rewrite sv_length, sv_vtab. apply vtab_ext. intros i Hi. change (nth i (sv (u_comp u) y) 0) with (vget (sv (u_comp u) y) i).
  rewrite sv_get. cbn [smul sadd sabs ScalarR]. rewrite <- (E i). apply recip_in. intros Z. specialize (E i). rewrite Z, Rabs_R0 in E. lra.
Qed.

(** One absolute tolerance per component. *)
Theorem vector_weights_in u rtol atol : (forall i, u_comp u i <> 0) ->
  weights_in u (ewt_set_sv rtol atol) (ewt_set_sv rtol (sv (fun i => Rabs (u_comp u i)) atol)).
Proof.
  intros Hm y. unfold ewt_set_sv, y_in, w_in.
  rewrite (map_as_vtab _ (combine (sv _ y) _) (0, 0)), (map_as_vtab _ (combine y atol) (0, 0)).
  rewrite !combine_length, !sv_length, sv_vtab. apply vtab_ext. intros i Hi.
  assert (C : forall a b : list R, (i < length a)%nat -> (i < length b)%nat -> nth i (combine a b) (0, 0) = (nth i a 0, nth i b 0)).
  { clear. induction i as [|i IH]; intros [|x a] [|z b] Ha Hb; cbn in *; try lia; [reflexivity|]. apply IH; lia. }
  rewrite !C by (rewrite ?sv_length; lia). cbn [fst snd].
  change (nth i (sv (u_comp u) y) 0) with (vget (sv (u_comp u) y) i).
  change (nth i (sv (fun i => Rabs (u_comp u i)) atol) 0) with (vget (sv (fun i => Rabs (u_comp u i)) atol) i).
  rewrite !sv_get. apply recip_in, Hm.
Qed.

(** ** What is the same in the two runs *)
(** The derivatives of every order at every time: in the new units, or the same
    refusal. *)
Definition derivatives_in {LSt NSt} {LS : LSolver R LSt} {NL : NLSolver R NSt} u (prob : problem R) (st st' : ida R LSt NSt) : Prop :=
  forall t k, orel (fun a a' => fst a' = sv (fun i => u_comp u i * (/ u_time u) ^ k) (fst a) /\ snd a' = result_in u (snd a))
    (get_dky prob st t k (vzero (model_size prob))) (get_dky (problem_in u prob) st' (time_in u t) k (vzero (model_size prob))).

(** The final states with the replies: every reply, everything the getters
    report, and once a step was completed also [get_dky]. *)
Definition same_answers {LSt NSt} {LS : LSolver R LSt} {NL : NLSolver R NSt} u (prob : problem R)
    (a a' : ida R LSt NSt * list reply) : Prop :=
  snd a' = map (reply_in u) (snd a) /\ reports_in u (fst a) (fst a') /\
  (get_num_steps (fst a) <> 0%nat -> derivatives_in u prob (fst a) (fst a')).

Section Run.
Variable u : units.
Context {LSt : Type} {LS : LSolver R LSt}.
Variable RF : LSt * mat R -> LSt * mat R -> Prop.
Variable nfuel : nat.
Local Instance NLS_P : NLSolver R (newton R) := NewtonNLS nfuel.
Variable prob : problem R.
Hypothesis Hu : units_ok (model_size prob) u.
Hypothesis Hs : solver_in u (model_size prob) RF.
Hypothesis Hn0 : (0 < model_size prob)%nat.
Variables ewt_set ewt_set' : list R -> list R.
Hypothesis Hw : weights_in u ewt_set ewt_set'.
Variable g : @config R.
Hypothesis Hg : config_ok g.

Notation prob' := (problem_in u prob).
Notation n := (model_size prob).
Notation state := (ida R LSt (newton R)).

Lemma map_rep k (a : R) c : k * a = a -> map (Rmult k) (repeat a c) = repeat a c.
Proof. intros E. induction c; cbn; congruence. Qed.
Lemma map_repv (f : nat -> R) v c : sv f v = v -> map (sv f) (repeat v c) = repeat v c.
Proof. intros E. induction c; cbn; congruence. Qed.

Lemma new_in yy0 yp0 :
  orel (fun s s' => sim u RF true (configure g s) (configure (config_in u g) s'))
    (ida_new prob yy0 yp0 : outcome state) (ida_new prob' (y_in u yy0) (yp_in u yp0)).
Proof.
  unfold ida_new, y_in, yp_in. change (model_size prob') with n. rewrite !sv_length.
  destruct (_ && _); [|exact I]. cbn [orel].
  exists (ls_new n, mkmat n n (fun _ _ => 0)). split; [|apply (si_new _ _ _ Hs)].
  unfold configure, config_in, st_in, nlp_new, lp_new.
  cbn -[sv mv vzero repeat map Rmult Rinv Rabs model_size ls_new].
  change (model_size prob') with n. change (num_roots prob') with (num_roots prob).
  assert (Z1 : forall k, k * 0 = 0) by (intros; ring). assert (Z2 : forall k, 0 * k = 0) by (intros; ring).
  assert (R0 : forall k c, map (Rmult k) (repeat 0 c) = repeat 0 c) by (intros; apply map_rep; ring).
  unfold phi_in, nlp_in, lp_in, newton_in, newton_new, time_in. cbn -[sv mv vzero repeat map Rmult Rinv Rabs model_size ls_new].
  rewrite ?Z1, ?Z2, ?R0, ?sv_zero, ?mv_zero, ?map_repv by apply sv_zero. reflexivity.
Qed.

Lemma sim_reports b (s s' : state) : sim u RF b s s' -> reports_in u s s'.
Proof. intros (q & -> & _). constructor; repeat split; reflexivity. Qed.

Lemma sim_derivatives (s s' : state) : sim u RF false s s' -> derivatives_in u prob s s'.
Proof. intros H t k. eapply (get_dky_in u RF prob Hu); eassumption. Qed.

Lemma later_calls cs yy0 yp0 (s s' : state) : reach prob ewt_set g yy0 yp0 s -> sim u RF false s s' -> nst s <> 0%nat ->
  orel (fun a a' => same_answers u prob a a')
    (calls_from prob ewt_set s cs) (calls_from prob' ewt_set' s' (map (fun x => (fst x, call_in u (snd x))) cs)).
Proof.
  revert s s'. induction cs as [|((fuel & rfuel) & c) cs IH]; intros s s' Hr H Hn; cbn [calls_from map fst snd].
  - split; [reflexivity|]. split; [exact (sim_reports _ _ _ H)|]. intros _. exact (sim_derivatives _ _ H).
  - pose proof (reach_J prob ewt_set (newton_lawful nfuel) g Hg yy0 yp0 s Hr) as HJ.
    destruct (reach_ordT prob ewt_set (newton_lawful nfuel) g yy0 yp0 s Hg Hr) as (Ho & _).
    pose proof (api_in u RF nfuel prob Hu Hs Hn0 g ewt_set ewt_set' Hw fuel rfuel s s' c H Ho HJ Hn) as A.
    destruct (api_call prob ewt_set fuel rfuel s c) as [(s1 & r)| |] eqn:E1,
      (api_call prob' ewt_set' fuel rfuel s' (call_in u c)) as [(s1' & r')| |]; cbn [orel bind] in *; try contradiction; try exact I.
    destruct A as (A & Ar). cbn [fst snd] in *. subst r'.
    assert (Hr1 : reach prob ewt_set g yy0 yp0 s1) by (eapply reach_call; [exact Hr|exact E1]).
    assert (Hn1 : nst s1 <> 0%nat).
    { destruct (reach_ordT prob ewt_set (newton_lawful nfuel) g yy0 yp0 s Hg Hr) as (Oa & _).
      destruct (pieces_ext prob ewt_set (newton_lawful nfuel) s s1 Oa (api_call_pieces prob ewt_set _ _ _ _ _ _ E1)) as (_ & evs & X).
      unfold ext in X. destruct X as (_ & _ & _ & _ & _ & X & _). lia. }
    eapply orel_bind; [apply (IH s1 s1' Hr1 A Hn1)|]. intros (s2 & rs) (s2' & rs') (Er & Hrep). unfold same_answers in *. cbn [fst snd orel map] in *.
    split; [congruence|exact Hrep].
Qed.

(** Until a step is completed only [solve] is called, and when more calls follow
    one that completes no step, it was rejected for its arguments. *)
Definition rejected (r : @reply R) : Prop :=
  exists t m, r = ReplySolve t (Err (EIda (IllegalIn m))) /\ bad_arguments m.

Fixpoint orderly (s : state) (cs : list (nat * nat * @call R)) : Prop :=
  match cs with
  | [] => True
  | (fuel, rfuel, c) :: rest =>
      (exists tout tret task, c = CallSolve tout tret task) /\
      forall s1 r, api_call prob ewt_set fuel rfuel s c = Ret (s1, r) ->
        rest = [] \/ get_num_steps s1 <> 0%nat \/ (rejected r /\ orderly s1 rest)
  end.

Definition orderly_calls yy0 yp0 cs : Prop :=
  forall st0 : state, ida_new prob yy0 yp0 = Ret st0 -> orderly (configure g st0) cs.

Lemma first_solve_steps yy0 yp0 fuel rfuel tout tret task rest (st0 st1 : state) t r :
  ida_new prob yy0 yp0 = Ret st0 -> solve prob ewt_set fuel rfuel (configure g st0) tout tret task = Ret (st1, t, r) ->
  nst st1 <> 0%nat -> orderly_calls yy0 yp0 ((fuel, rfuel, CallSolve tout tret task) :: rest).
Proof.
  intros E0 E1 Hz a Ea. rewrite E0 in Ea. injection Ea as <-. cbn [orderly]. split; [do 3 eexists; reflexivity|].
  intros b q Eb. right. left. unfold api_call in Eb. rewrite E1 in Eb. cbn [bind] in Eb. injection Eb as <- _. exact Hz.
Qed.

Lemma api_solve fuel rfuel (s s1 x : state) tout tret task t r q :
  solve prob ewt_set fuel rfuel s tout tret task = Ret (s1, t, r) ->
  api_call prob ewt_set fuel rfuel s (CallSolve tout tret task) = Ret (x, q) -> x = s1 /\ q = ReplySolve t r.
Proof. intros E A. unfold api_call in A. rewrite E in A. cbn [bind] in A. injection A as <- <-. split; reflexivity. Qed.

Lemma rejected_then_solve yy0 yp0 fuel0 rfuel0 tout0 tret0 fuel rfuel tout tret rest (st0 st1 : state) t r :
  ida_new prob yy0 yp0 = Ret st0 -> too_close (g_t0 g) tout0 = true ->
  solve prob ewt_set fuel rfuel (configure g st0) tout tret Normal = Ret (st1, t, r) -> nst st1 <> 0%nat ->
  orderly_calls yy0 yp0 ((fuel0, rfuel0, CallSolve tout0 tret0 Normal) :: (fuel, rfuel, CallSolve tout tret Normal) :: rest).
Proof.
  intros E0 Hc E Hz a Ea. rewrite E0 in Ea. injection Ea as <-.
  assert (Hr : reach prob ewt_set g yy0 yp0 (configure g st0)) by (apply reach_new; exact E0).
  assert (Hs0 : steps (trace (lp (nlp (configure g st0)))) = []).
  { revert E0. unfold ida_new. destruct (_ && _); [|discriminate]. intros E0. injection E0 as <-. reflexivity. }
  assert (Hl : @nls_lawful R (newton R) NLS_P) by exact (newton_lawful nfuel).
  destruct (@C17_too_close R LSt (newton R) _ _ NLS_P prob ewt_set Hl g yy0 yp0 (configure g st0) tout0 Hg Hr Hs0 Hc fuel0 rfuel0 tret0 Normal)
    as (s1 & E1 & _ & G & _).
  pose proof (eq_trans (G fuel rfuel tout tret Normal (or_intror eq_refl)) E) as E2. clear G E.
  split; [do 3 eexists; reflexivity|]. intros x q A. destruct (api_solve _ _ _ _ _ _ _ _ _ _ _ E1 A) as (-> & ->). right. right.
  split; [exists tret0, ToutTooClose; split; [reflexivity|left; reflexivity]|].
  split; [do 3 eexists; reflexivity|]. intros x q B. destruct (api_solve _ _ _ _ _ _ _ _ _ _ _ E2 B) as (-> & ->). right. left. exact Hz.
Qed.

(** A rejection comes from the first-call block. *)
Lemma rejected_first fuel rfuel (s s1 : state) tout tret task r : ordok s -> nst s = 0%nat ->
  api_call prob ewt_set fuel rfuel s (CallSolve tout tret task) = Ret (s1, r) -> rejected r -> nst s1 = 0%nat ->
  ~ passed prob ewt_set s tout task.
Proof.
  intros O Hz E (t & m & -> & Hm) Hz1 (sp & Hp). cbn [api_call] in E. apply bind_ret_inv in E. destruct E as (((sa & ta) & ra) & E & Eq).
  cbv beta in Eq. injection Eq as -> -> ->. pose proof (newton_lawful (T := R) nfuel) as Hl.
  apply solve_run in E. destruct E as [E|(s0 & s2 & nl & k & En & Lo & Ed)].
  - unfold answers in E. apply solve_start_cases in E. destruct E as [E|[E|E]].
    + destruct E as (_ & sx & m1 & E & Ex). unfold task_set in E. congruence.
    + destruct E as (_ & sx & l & _ & _ & _ & _ & Ex). discriminate.
    + destruct E as (N & _). apply N. destruct task; exact Hz.
  - pose proof (run_head _ _ _ _ _ _ _ _ _ _ En Lo) as Hd.
    assert (Os : ordok s2) by exact (pieces_ord prob ewt_set Hl _ _ O (hd_pieces _ _ _ _ _ _ Hd)).
    remember (Err (EIda (IllegalIn m))) as r eqn:Er.
    destruct Ed as [st1 t r Ep|x1 x2 e st1 t r Ep Es Ef|x1 x2 v st1 t r Ep Es Ef _].
    + apply pre_step_shell in Ep. cbn iota in Ep. destruct Ep as (_ & _ & D).
      destruct D as [(D & _)|(_ & [D|D])]; rewrite D in Er; injection Er; intros; subst; destruct Hm as [|[|]]; discriminate.
    + apply pre_step_shell in Ep. destruct Ep as (Sp & _).
      pose proof (step_err_kinds prob _ _ _ _ Hl (shell_ord _ _ _ Sp Os) Es) as K.
      unfold step_failed in Ef. apply bind_ret_inv in Ef. destruct Ef as ((sy & ier) & _ & Ef). cbv beta in Ef.
      destruct ier; injection Ef as _ _ Ef; rewrite <- Ef in Er; injection Er as Er; exact (K _ Er).
    + apply pre_step_shell in Ep. destruct Ep as (Sp & _).
      destruct (step_nst prob Hl _ _ _ _ (shell_ord _ _ _ Sp Os) Es) as (N & _).
      destruct (post_step_shell _ _ _ _ _ _ _ _ _ Ef) as (x & X1 & [(_ & X2 & _)|(_ & [X2|(y & X2 & X3)])]);
        apply shell_nst in X1; try apply lims_nst in X2; try apply shell_nst in X2; try apply shell_nst in X3; lia.
Qed.

Lemma first_calls cs yy0 yp0 (s s' : state) : reach prob ewt_set g yy0 yp0 s -> sim u RF true s s' -> nst s = 0%nat -> orderly s cs ->
  orel (fun a a' => same_answers u prob a a')
    (calls_from prob ewt_set s cs) (calls_from prob' ewt_set' s' (map (fun x => (fst x, call_in u (snd x))) cs)).
Proof.
  revert s s'. induction cs as [|((fuel & rfuel) & c) rest IH]; intros s s' Hr H Hn Hf; cbn [calls_from map fst snd].
  { split; [reflexivity|]. split; [exact (sim_reports _ _ _ H)|]. intros C. destruct (C Hn). }
  cbn [orderly] in Hf. destruct Hf as ((tout & tret & task & ->) & Hf). set (c0 := CallSolve tout tret task) in *.
  pose proof (proj1 (reach_ordT prob ewt_set (newton_lawful nfuel) g yy0 yp0 _ Hg Hr)) as Ho.
  pose proof (api_first u RF nfuel prob Hu Hs Hn0 g ewt_set ewt_set' Hw fuel rfuel _ _ tout tret task H Ho
    (reach_J prob ewt_set (newton_lawful nfuel) g Hg yy0 yp0 _ Hr) Hn) as A. fold c0 in A.
  destruct (api_call prob ewt_set fuel rfuel s c0) as [(s1 & r)| |] eqn:E1,
    (api_call prob' ewt_set' fuel rfuel s' (call_in u c0)) as [(s1' & r')| |];
    cbn [orel bind] in *; try contradiction; try exact I. cbn [fst snd] in A.
  assert (Er : r' = reply_in u r) by (destruct A as [((_ & X) & _)|((_ & X) & _)]; exact X). subst r'.
  assert (Hr1 : reach prob ewt_set g yy0 yp0 s1) by (eapply reach_call; [exact Hr|exact E1]).
  assert (Tail : orel (fun a a' => same_answers u prob a a')
    (calls_from prob ewt_set s1 rest) (calls_from prob' ewt_set' s1' (map (fun x => (fst x, call_in u (snd x))) rest))).
  { destruct (Hf s1 r eq_refl) as [->|[Hz|(Hj & Hf1)]].
    - cbn [calls_from map orel]. split; [reflexivity|]. cbn [fst snd]. split.
      + destruct A as [((A & _) & _)|((A & _) & _)]; exact (sim_reports _ _ _ A).
      + intros Hz. destruct A as [(_ & A)|((A & _) & _)]; [destruct (Hz A)|exact (sim_derivatives _ _ A)].
    - destruct A as [(_ & A)|((A & _) & _)]; [destruct (Hz A)|]. cbn [fst snd] in A.
      exact (later_calls rest yy0 yp0 s1 s1' Hr1 A Hz).
    - destruct (Nat.eq_dec (nst s1) 0) as [Hz|Hz].
      + destruct A as [((A & _) & _)|(_ & Hp)]; [|destruct (rejected_first _ _ _ _ _ _ _ _ Ho Hn E1 Hj Hz Hp)].
        exact (IH s1 s1' Hr1 A Hz Hf1).
      + destruct A as [(_ & A)|((A & _) & _)]; [destruct (Hz A)|]. exact (later_calls rest yy0 yp0 s1 s1' Hr1 A Hz). }
  eapply orel_bind; [exact Tail|]. intros (s2 & rs) (s2' & rs') (X & Hrep). unfold same_answers in *. cbn [fst snd orel map] in *.
  split; [congruence|exact Hrep].
Qed.

Lemma run_in yy0 yp0 cs : orderly_calls yy0 yp0 cs ->
  orel (fun a a' => same_answers u prob a a')
    (run prob ewt_set g yy0 yp0 cs)
    (run prob' ewt_set' (config_in u g) (y_in u yy0) (yp_in u yp0) (map (fun x => (fst x, call_in u (snd x))) cs)).
Proof.
  intros Hf. unfold run. pose proof (new_in yy0 yp0) as N. unfold orderly_calls in Hf.
  destruct (ida_new prob yy0 yp0) as [st0| |] eqn:E0, (ida_new prob' (y_in u yy0) (yp_in u yp0)) as [st0'| |];
    cbn [orel bind] in *; try contradiction; try exact I.
  apply (first_calls cs yy0 yp0); [apply reach_new; exact E0|exact N| |exact (Hf _ eq_refl)].
  revert E0. unfold ida_new. destruct (_ && _); [|discriminate]. intros E. injection E as <-. reflexivity.
Qed.
End Run.

(** ** C78
    The problem is rewritten in other units: time (possibly reversed), each
    component (possibly with the sign changed), and the equations are replaced
    by as many independent combinations of them.  The object for
    the rewritten problem, with the settings and tolerances in the new units,
    asked the same questions in the new units, gives the same answers in the
    new units: same results and orders, same numbers of steps, evaluations and
    failures, same root information, times and steps multiplied by the unit of
    time, y and y' in the new units, and it calls the user's functions at the
    same arguments in the same order.  It panics iff the old one does. *)
Theorem C78_units_dense (u : units) nfuel (prob : problem R) ewt_set ewt_set' g yy0 yp0 cs :
  let N := NewtonNLS nfuel in
  units_ok (model_size prob) u -> (0 < model_size prob)%nat -> config_ok g ->
  weights_in u ewt_set ewt_set' ->
  orderly_calls (LSt := list nat) nfuel prob ewt_set g yy0 yp0 cs ->
  orel (fun a a' => same_answers (LSt := list nat) (NSt := newton R) u prob a a')
    (run prob ewt_set g yy0 yp0 cs)
    (run (problem_in u prob) ewt_set' (config_in u g) (y_in u yy0) (yp_in u yp0)
         (map (fun x => (fst x, call_in u (snd x))) cs)).
Proof.
  intros N Hu Hn Hg Hw Hf.
  exact (run_in u (UnitsDense.RF u (model_size prob)) nfuel prob Hu (dense_solver_in u _ Hu Hn) Hn ewt_set ewt_set' Hw g Hg
           yy0 yp0 cs Hf).
Qed.

(** Any linear solver, when only the time is measured differently or reversed. *)
Definition time_units (L : R) : units := mkunits L (fun _ => 1) same_equations same_equations.

Theorem C78_time_any_solver (L : R) {LSt} {LS : LSolver R LSt} nfuel (prob : problem R) ewt_set g yy0 yp0 cs :
  let N := NewtonNLS nfuel in
  let u := time_units L in
  L <> 0 -> (0 < model_size prob)%nat -> config_ok g ->
  orderly_calls (LSt := LSt) nfuel prob ewt_set g yy0 yp0 cs ->
  orel (fun a a' => same_answers (LSt := LSt) (NSt := newton R) u prob a a')
    (run prob ewt_set g yy0 yp0 cs)
    (run (problem_in u prob) ewt_set (config_in u g) yy0 (yp_in u yp0) (map (fun x => (fst x, call_in u (snd x))) cs)).
Proof.
  intros N u HL Hn Hg Hf.
  assert (Hu : units_ok (model_size prob) u).
  { split; [exact HL|split; [intros i; cbn; lra|]]. intros i k Hi _. exact (rsum_pick _ i (fun p => same_equations p k) Hi). }
  assert (Y : forall y, y_in u y = y) by (intros y; apply sv_id; reflexivity).
  assert (W : forall w, w_in u w = w) by (intros w; apply sv_id; intros i; cbn; rewrite Rabs_R1; apply Rinv_1).
  assert (Hw : weights_in u ewt_set ewt_set) by (intros y; rewrite Y, W; reflexivity).
  pose proof (run_in u eq nfuel prob Hu (any_solver_in L _) Hn ewt_set ewt_set Hw g Hg
           yy0 yp0 cs Hf) as G.
  rewrite Y in G. exact G.
Qed.

Print Assumptions scalar_weights_in.
Print Assumptions vector_weights_in.
Print Assumptions C78_units_dense.
Print Assumptions C78_time_any_solver.

(** The two equations of [lin2] with the time in minutes running backwards, the
    first component in thousandths and the second in thousandths with the
    opposite sign, the equations replaced by twice the first plus the second
    and by their sum; one [solve] to the initial time, which is rejected, one
    to a later time, then derivatives and a further [solve]. *)
Definition units_ex : units := mkunits (- / 60) (fun i => match i with O => 1000 | _ => - 1000 end)
  (fun i k => match i, k with O, O => 2 | _, _ => 1 end)
  (fun i k => match i, k with O, O => 1 | O, _ => - 1 | _, O => - 1 | _, _ => 2 end).
Lemma too_close_zero : too_close (g_t0 (default_config lin2)) 0 = true.
Proof.
  unfold too_close. apply orb_true_iff. left. cbn [g_t0 default_config]. apply Reqb_true.
  change (Rabs (0 - 0) = 0). rewrite Rminus_0_r. apply Rabs_R0.
Qed.

Example C78_hypotheses_met : exists rfuel,
  units_ok (model_size lin2) units_ex /\ (0 < model_size lin2)%nat /\ config_ok (default_config lin2) /\
  weights_in units_ex (ewt_set_ss (/ 10000) (/ 1000000)) (ewt_set_ss (/ 10000) (1000 * / 1000000)) /\
  orderly_calls (LSt := list nat) 1 lin2 (ewt_set_ss (/ 10000) (/ 1000000)) (default_config lin2)
    (affine 2 lin_a lin_b 0) (rates 2 lin_b)
    [(501%nat, rfuel, CallSolve 0 0 Normal); (501%nat, rfuel, CallSolve 1 0 Normal); (501%nat, rfuel, CallGetDky 1 1); (501%nat, rfuel, CallSolve 2 1 Normal)].
Proof.
  destruct C76_hypotheses_met as (st0 & Hn & Hs & Hg & He & Hj & _ & En & Hm).
  set (w := wrms_norm (repeat false 2) (rates 2 lin_b) (ewt_set_ss (/ 10000) (/ 1000000) (affine 2 lin_a lin_b 0)) false).
  assert (Hb : 1 <= 2 ^ 499 * Rabs (first_size 0 0 0 1 w)).
  { apply chosen_bound; [lra|apply pow_le; lra| |]; pose proof pow_499 as P; assert (Pn : 10 ^ 9 = 1000000000) by (cbn; lra); rewrite Pn in P.
    - rewrite Rminus_0_r, Rabs_R1. lra.
    - pose proof lin2_rates_norm as Q. fold w in Q. lra. }
  destruct (first_output lin2 (ewt_set_ss (/ 10000) (/ 1000000)) 1 (fun piv => length piv = 2%nat) (dense_zero 2 Hn) Hn lin_a lin_b Hs
    (default_config lin2) Hg He eq_refl) with (st0 := st0) (fuel := 501%nat) (tout := 1) (tret := 0) (dmax := 1)
    as (N & st' & E & _ & _ & Bw & _); try assumption; try reflexivity; try (cbn; lia).
  - intros s t c Ls Hc. destruct (proj2 (dense_setup_ok_iff 2 2 _ s (le_n 2) Ls) (Hj t c Hc)) as (piv & F & E).
    exists piv, F. exact E.
  - apply ss_usable; [exact Hn|unfold eps; cbn; lra|lra].
  - split; [cbn; lra|]. cbn [g_t0 default_config]. change (@szero R _) with 0. rewrite Rabs_R0, Rminus_0_r, Rabs_R1. unfold eps. cbn. lra.
  - left. reflexivity.
  - change (g_t0 (default_config lin2)) with 0. rewrite Rminus_0_r, Rabs_R1. lra.
  - exists N. split; [split; [cbn; lra|split; [intros [|i]; cbn; lra|]]|].
    { cbn [model_size lin2]. intros [|[|i]] [|[|k]] Hi Hk; try lia; cbn; lra. }
    split; [exact Hn|]. split; [exact Hg|].
    split; [apply scalar_weights_in; [lra|intros [|i]; cbn; unfold Rabs; destruct (Rcase_abs _); lra]|].
    refine (rejected_then_solve 1 lin2 (ewt_set_ss (/ 10000) (/ 1000000)) (default_config lin2) Hg _ _ 501 N 0 0 501 N 1 0 _ st0 st' 1 (Ok Success)
             En _ (E N (le_n N)) (bw_nst _ _ _ _ _ _ _ _ _ _ Bw)).
    exact too_close_zero.
Qed.
