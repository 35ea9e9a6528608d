(** * PropRoots: rootfinding (C55-C62), src/impl_r_check.rs *)
Require Import List Arith Bool Lia Floats Reals Lra Psatz.
Import ListNotations.
Require Import Verif.Base Verif.Scalar Verif.ScalarR Verif.ScalarF Verif.Dense Verif.Norms Verif.NormsR Verif.Newton Verif.NewtonSpec Verif.IdaState
  Verif.IdaNls Verif.IdaCore Verif.IdaRoots Verif.IdaSolve Verif.IdaIo Verif.BaseFacts Verif.NewtonFacts
  Verif.IdaFacts Verif.IdaLoops Verif.IdaStep Verif.IdaSpec Verif.IdaShell Verif.IdaReach Verif.IdaInv
  Verif.IdaCount Verif.IdaLife Verif.IdaTrace Verif.IdaAccept Verif.IdaStepR Verif.IdaSafe Verif.IdaInterp Verif.IdaCall Verif.IdaCallR
  Verif.Script Verif.Witness Verif.PropSafe Verif.PropSolve Verif.ExampleR Verif.PropStepR Verif.PropStop Verif.PropDky
  Verif.RootFacts Verif.RootWalk.
Set Warnings "-inexact-float".
Open Scope nat_scope.

(** ** For every scalar *)
Section Any.
Context {T LSt NSt : Type} `{Scalar T} `{LSolver T LSt} `{NLSolver T NSt}.
Variable prob : problem T.
Variable ewt_set : list T -> list T.
Hypothesis Hl : @nls_lawful T NSt _.
Notation nr := (num_roots prob).
Notation state := (ida T LSt NSt).
Notation tr st := (trace (lp (nlp st))).

(** A predicate kept by everything one call does; [first_call] only runs at the
    beginning. *)
Lemma solve_walk1 (P : state -> Prop) :
  (forall a b, P a -> shell prob a b -> P b) -> (forall a b, P a -> lims a b -> P b) ->
  forall fuel rfuel st tout tret itask st' t r,
  (forall x, nst st = 0 -> first_call prob ewt_set (task_set st tout itask) tout = Ret x -> P (match x with inl (s, _) => s | inr s => s end)) ->
  (forall s nl s1 f s2 rs, P s -> pieces prob ewt_set st s -> pre_step prob ewt_set s tret nl = Ret (inr s1) ->
     step prob f s1 = Ret (s2, rs) -> P s2) ->
  P st -> solve prob ewt_set fuel rfuel st tout tret itask = Ret (st', t, r) -> P st'.
Proof.
  intros PS PL fuel rfuel st tout tret itask st' t r PF PT H0' E.
  pose proof (PS _ _ H0' (task_set_shell prob st tout itask)) as H1'.
  assert (Post : forall s2 s' t' r', P s2 -> post_step prob rfuel s2 tout tret itask = Ret (s', t', r') -> P s').
  { intros s2 s' t' r' Hp Ef. destruct (post_step_shell _ _ _ _ _ _ _ _ _ Ef) as (x & X1 & [(_ & X2 & _)|(_ & [X2|(y & X2 & X3)])]).
    - exact (PL _ _ (PS _ _ Hp X1) X2).
    - exact (PS _ _ (PS _ _ Hp X1) X2).
    - exact (PS _ _ (PL _ _ (PS _ _ Hp X1) X2) X3). }
  assert (Start : forall x, solve_start prob ewt_set rfuel (task_set st tout itask) tout tret itask = Ret x ->
     P (match x with inl (s, _, _) => s | inr (s, _) => s end)).
  { intros x A.
    assert (Hn : nst (task_set st tout itask) = nst st) by (destruct itask; reflexivity).
    destruct (solve_start_cases _ _ _ _ _ _ _ _ A) as [(Hz & s & m & X & ->)|[(Hz & s & l & E1 & E2 & E3 & E4 & ->)|(Hz & l & E1 & S1 & Q)]].
    - rewrite Hn in Hz. exact (PF _ Hz X).
    - rewrite Hn in Hz. exact (PS _ _ (PF _ Hz E1) E4).
    - apply later_call_shell in Q. destruct x as [((s & t') & r')|(s & t')].
      + destruct Q as (_ & Q). exact (PS _ _ (PS _ _ H1' S1) Q).
      + destruct Q as (_ & y & Q1 & _ & Q2 & _). exact (PL _ _ (PS _ _ (PS _ _ H1' S1) Q1) Q2). }
  destruct (solve_run _ _ _ _ _ _ _ _ _ _ _ E) as [A|(s0 & s & nl & m & En & Lo & F)].
  - exact (Start _ A).
  - pose proof (Start _ En) as Hs. cbv iota in Hs.
    assert (Hp : P s).
    { clear F. induction Lo as [|s nl s1 s2 u s' Lo IH Ep Es Ef]; [exact Hs|].
      pose proof (hd_pieces _ _ _ _ _ _ (run_head _ _ _ _ _ _ _ _ _ _ En Lo)) as Pc.
      exact (Post _ _ _ _ (PT _ _ _ _ _ _ IH Pc Ep Es) Ef). }
    pose proof (hd_pieces _ _ _ _ _ _ (run_head _ _ _ _ _ _ _ _ _ _ En Lo)) as Pc.
    destruct F as [st' t r Ep|s1 s2 e st' t r Ep Es Ef|s1 s2 u st' t r Ep Es Ef Hr2].
    + apply pre_step_shell in Ep. destruct Ep as (Ep & _). exact (PS _ _ Hp Ep).
    + apply step_failed_shell in Ef. destruct Ef as (Ef & _). exact (PS _ _ (PT _ _ _ _ _ _ Hp Pc Ep Es) Ef).
    + exact (Post _ _ _ _ (PT _ _ _ _ _ _ Hp Pc Ep Es) Ef).
Qed.

(** *** C62 *)
(** Any further calls on the object. *)
Inductive later_calls (st : state) : state -> Prop :=
| lc_none : later_calls st st
| lc_call a b fuel rfuel k rep : later_calls st a -> api_call prob ewt_set fuel rfuel a k = Ret (b, rep) -> later_calls st b.

Definition g_counted (st : state) : Prop := get_num_g_evals st = count is_root (tr st).

Lemma counted_shell (a b : state) : g_counted a -> shell prob a b -> g_counted b.
Proof.
  unfold g_counted, get_num_g_evals. intros Ha S. destruct (sh_trace _ _ _ S) as (evs & X & _ & Y). rewrite Y, X, count_app. lia.
Qed.
Lemma counted_lims (a b : state) : g_counted a -> lims a b -> g_counted b.
Proof. intros Ha L. apply lims_fields in L. destruct L as (h & ->). exact Ha. Qed.

Lemma counted_step fuel (a b : state) r : ordok a -> g_counted a -> step prob fuel a = Ret (b, r) -> g_counted b.
Proof.
  unfold g_counted, get_num_g_evals. intros O Ha E. apply (step_spec prob Hl) in E; [|exact O].
  destruct (stepped_ord prob _ _ _ O E) as (_ & _ & _ & R & _).
  destruct (stepped_ext prob ewt_set Hl _ _ _ O E) as (evs & cs & t & h & k & f & S1 & S2 & _ & X & _).
  apply rootst_fields in R. destruct R as (_ & _ & _ & _ & _ & _ & _ & _ & _ & _ & _ & -> & _). rewrite X, Ha.
  destruct (step_evs_counts _ _ S1) as (_ & _ & C1 & _). destruct (quiet_counts _ S2) as (_ & _ & C2 & _).
  rewrite !count_app. change (CTry t h k :: evs ++ [begin_ev a]) with ([CTry t h k] ++ evs ++ [begin_ev a]). rewrite !count_app, C1, C2.
  destruct r as [u|[]]; reflexivity.
Qed.

Lemma counted_solve c yy0 yp0 fuel rfuel (st : state) tout tret itask st' t r : config_ok c -> 0 < nr -> reach prob ewt_set c yy0 yp0 st ->
  g_counted st -> nst st <> 0 \/ count is_root (tr st) = 0 ->
  solve prob ewt_set fuel rfuel st tout tret itask = Ret (st', t, r) -> g_counted st'.
Proof.
  intros Hc Hnr Hr Hg Hz E. destruct (reach_ordT prob ewt_set Hl c yy0 yp0 st Hc Hr) as (O & Tl).
  pose proof (tl_cfg _ _ _ _ Tl) as Cf. unfold cfg_is in Cf. destruct Cf as (_ & _ & _ & _ & _ & _ & _ & _ & _ & _ & Nr & _).
  refine (solve_walk1 g_counted counted_shell counted_lims fuel rfuel st tout tret itask st' t r _ _ Hg E).
  - intros x Hn X. destruct Hz as [Hz|Hz]; [contradiction|].
    pose proof (counted_shell _ _ Hg (task_set_shell prob st tout itask)) as Hg1.
    assert (Hz1 : count is_root (tr (task_set st tout itask)) = 0) by (destruct itask; exact Hz).
    apply first_call_frame in X. cbv zeta in X. destruct X as (_ & _ & _ & _ & X). unfold g_counted, get_num_g_evals in *.
    destruct x as [(s & m)|s].
    + destruct X as (_ & Rt & _ & Xn & _). apply rootst_fields in Rt. destruct Rt as (_ & _ & _ & _ & _ & _ & _ & _ & _ & _ & _ & -> & _).
      rewrite Xn. exact Hg1.
    + destruct X as (_ & _ & _ & _ & _ & _ & evs & -> & Fr & ->). rewrite count_app, Hz1.
      assert (En : (0 <? nrtfn (task_set st tout itask)) = true).
      { apply Nat.ltb_lt. replace (nrtfn (task_set st tout itask)) with (nrtfn st) by (destruct itask; reflexivity). lia. }
      rewrite En. lia.
  - intros s nl s1 f s2 rs Hs Pc Ep Es. pose proof (pre_step_shell _ _ _ _ _ _ Ep) as (S1 & _).
    eapply counted_step; [|exact (counted_shell _ _ Hs S1)|exact Es].
    apply (pieces_ord prob ewt_set Hl st); [exact O|]. eapply pieces_shell; eassumption.
Qed.

Lemma later_reach c yy0 yp0 (a b : state) : reach prob ewt_set c yy0 yp0 a -> later_calls a b -> reach prob ewt_set c yy0 yp0 b.
Proof. intros Hr L. induction L as [|x y fuel rfuel k rep L IH E]; [exact Hr|]. eapply reach_call; eassumption. Qed.

(** The counter is right from the first step on if the first call of [solve]
    that calls the root functions completes a step; nothing the user does later
    breaks it.  Missing for C62: lives whose first call fails, see [C62_refuted]. *)
Theorem C62_g_evals_counted_partial c yy0 yp0 (st0 st1 st : state) fuel rfuel tout tret itask t r :
  config_ok c -> 0 < nr -> reach prob ewt_set c yy0 yp0 st0 -> get_num_g_evals st0 = 0 -> count is_root (tr st0) = 0 ->
  solve prob ewt_set fuel rfuel st0 tout tret itask = Ret (st1, t, r) -> steps (tr st1) <> [] ->
  later_calls st1 st -> get_num_g_evals st = count is_root (tr st).
Proof.
  intros Hc Hnr Hr Hg Hz E Hs L.
  assert (G1 : g_counted st1).
  { eapply counted_solve; [exact Hc|exact Hnr|exact Hr|unfold g_counted; congruence|right; exact Hz|exact E]. }
  assert (Hr1 : reach prob ewt_set c yy0 yp0 st1).
  { eapply (reach_call prob ewt_set c yy0 yp0 fuel rfuel st0 (CallSolve tout tret itask)); [exact Hr|].
    unfold api_call. rewrite E. reflexivity. }
  assert (N1 : nst st1 <> 0).
  { destruct (reach_ordT prob ewt_set Hl c yy0 yp0 st1 Hc Hr1) as (_ & Tl). rewrite <- (tl_n _ _ _ _ Tl).
    destruct (steps (tr st1)); [congruence|discriminate]. }
  assert (G : g_counted st /\ nst st <> 0); [|exact (proj1 G)].
  induction L as [|a b f rf k rep L IH Ea]; [auto|]. destruct IH as (Ga & Na).
  pose proof (later_reach c yy0 yp0 _ _ Hr1 L) as Hra.
  assert (Nb : nst a <= nst b).
  { destruct (reach_ordT prob ewt_set Hl c yy0 yp0 a Hc Hra) as (Oa & _).
    destruct (pieces_ext prob ewt_set Hl a b Oa (api_call_pieces prob ewt_set _ _ _ _ _ _ Ea)) as (_ & evs & X).
    unfold ext in X. destruct X as (_ & _ & _ & _ & _ & X & _). lia. }
  split; [|lia]. unfold api_call in Ea. destruct k as [tout' tret' itask'|t'|t' k'].
  - apply bind_ret_inv in Ea. destruct Ea as (((s & t1) & r1) & Ea & X). injection X as <- <-.
    eapply counted_solve; [exact Hc|exact Hnr|exact Hra|exact Ga|left; exact Na|exact Ea].
  - apply bind_ret_inv in Ea. destruct Ea as ((s & r1) & Ea & X). injection X as <- <-.
    eapply counted_shell; [exact Ga|]. exact (get_solution_shell prob _ _ _ _ Ea).
  - apply bind_ret_inv in Ea. destruct Ea as ((s & r1) & Ea & X). injection X as <- <-. exact Ga.
Qed.
End Any.

Open Scope R_scope.

Section OverR.
Context {LSt NSt : Type} `{LSolver R LSt} `{NLSolver R NSt}.
Variable prob : problem R.
Notation n := (model_size prob).
Notation nr := (num_roots prob).
Notation state := (ida R LSt NSt).
Notation tr st := (trace (lp (nlp st))).

(** ** Vocabulary *)

(** The user's root function was called at [t] and its component [i] was [v]. *)
Definition called (st : state) (t : R) (i : nat) (v : R) : Prop :=
  exists y ypv, In (CRoot t y ypv) (tr st) /\ v = p_root prob t y ypv i.

(** The root tolerance, 100 unit roundoffs of the current time and step. *)
Definition tolerance (st : state) : R :=
  100 * / 4503599627370496 * (Rabs (get_current_time st) + Rabs (get_current_setp st)).

Lemma tolerance_eq (st : state) : root_ttol st = tolerance st.
Proof. unfold root_ttol, tolerance, get_current_time, get_current_setp. cbn. ring. Qed.

Lemma called_more (a b : state) t i v evs : tr b = evs ++ tr a -> called a t i v -> called b t i v.
Proof. intros E (y & q & Hi & V). exists y, q. split; [|exact V]. rewrite E. apply in_or_app. right. exact Hi. Qed.

Lemma evald_called (st st' : state) t g i : evald prob st (tr st') t g -> (i < nr)%nat -> called st' t i (vget g i).
Proof.
  intros (y & q & -> & Hi & _) Li. exists y, q. split; [exact Hi|]. unfold vget. rewrite nth_vtab by exact Li. reflexivity.
Qed.

Lemma shell_more (a b : state) : shell prob a b -> exists evs, tr b = evs ++ tr a.
Proof. intros S. destruct (sh_trace _ _ _ S) as (evs & X & _). eauto. Qed.

Lemma shell_tol (a b : state) : shell prob a b -> tolerance b = tolerance a.
Proof.
  intros S. pose proof (core_fields _ _ (sh_core _ _ _ S)) as C.
  destruct C as (_ & _ & _ & _ & _ & _ & _ & _ & _ & _ & _ & _ & Ch & _ & _ & _ & _ & _ & Ct & _).
  unfold tolerance, get_current_time, get_current_setp. rewrite Ch, Ct. reflexivity.
Qed.

(** ** The search of one interval

    [st] is any state of the object with its arrays in place; the search runs
    from the last checked time [tlo st], where the root functions had the
    values [glo st], to [right_end st]: the current internal time, or the
    requested output time if that comes first. *)
Definition searchable (st : state) : Prop :=
  arrays st /\ (kused st <= 5)%nat /\ hh st <> 0 /\ length (glo st) = nr.

Lemma searchable_tol (st : state) : searchable st -> 0 < root_ttol st.
Proof.
  intros (_ & _ & Hh & _). rewrite tolerance_eq. unfold tolerance, get_current_setp.
  pose proof (Rabs_pos (get_current_time st)). pose proof (Rabs_pos_lt _ Hh). nra.
Qed.

(** A component the search looks at: active, and its direction is asked for.
    [rootdir] holds [u8], 0 for both directions; 1 lets only components through
    that are not positive on the left. *)
Definition watched (st : state) (v : R) (i : nat) : Prop :=
  bget (gactive st) i = true /\ (nget (rootdir st) i = 0%nat \/ v <= 0).

Lemma watched_dir (st : state) v i : bget (gactive st) i = true /\ INR (nget (rootdir st) i) * v <= 0 <-> watched st v i.
Proof.
  unfold watched. split; intros (A & B); (split; [exact A|]).
  - destruct (nget (rootdir st) i) as [|k]; [left; reflexivity|right].
    assert (0 < INR (S k)) by (apply lt_0_INR; lia). nra.
  - destruct B as [->|B]; [cbn; lra|]. pose proof (pos_INR (nget (rootdir st) i)). nra.
Qed.

(** The search reports component [i] between left value [v] and right value [w]. *)
Definition root_between (v w : R) : Prop := w = 0 \/ v * w < 0.

Lemma hit_iff (st : state) gl gh i : hit (gactive st) (rootdir st) gl gh i <-> watched st (vget gl i) i /\ root_between (vget gl i) (vget gh i).
Proof.
  unfold hit, crosses, vanishes. rewrite <- watched_dir. unfold root_between. tauto.
Qed.

(** [v] is the value of component [i] on the solution the object interpolates
    at [t], provided it accepts [t]. *)
Definition along (st : state) (i : nat) (t v : R) : Prop :=
  forall s, get_solution prob st t = Ret (s, Ok tt) -> v = p_root prob t (get_yy s) (get_yp s) i.

Lemma along_interp (st : state) i t v : arrays st -> (kused st <= 5)%nat ->
  (time_check st t = None -> v = p_root prob t (interp_y prob st t) (interp_yp prob st t) i) -> along st i t v.
Proof.
  intros A K X s E. pose proof (gs_eval prob st s t _ A K E) as G. destruct (time_check st t); [destruct G; discriminate|].
  destruct G as (_ & Gy & Gp). unfold get_yy, get_yp. rewrite Gy, Gp. exact (X eq_refl).
Qed.

(** C55.  The reported time lies in the searched interval, right of a point [tl]
    of it; the reported components are exactly those watched ones that vanish
    at the reported time or change sign between the two points; there is one;
    if one of them changes sign then the points are at most the tolerance apart.
    The values on both sides are values of the user's root function (at the
    left end of the interval: the values stored by the check before). *)
Theorem C55_root_bracketed fuel (st st' : state) : searchable st -> r_check3 prob fuel st = Ret (st', RootFound) ->
  exists tl gl,
    (exists a b, 0 <= a < b /\ b <= 1 /\ tl = tlo st + a * (right_end st - tlo st) /\
       tlo st' = tlo st + b * (right_end st - tlo st)) /\
    (tl = tlo st /\ gl = glo st \/ forall i, (i < nr)%nat -> called st' tl i (vget gl i) /\ along st i tl (vget gl i)) /\
    (forall i, (i < nr)%nat -> called st' (tlo st') i (vget (glo st') i) /\
       along st i (tlo st') (vget (glo st') i)) /\
    (forall i, (i < nr)%nat -> vget (get_root_info st') i <> 0 <->
       watched st (vget gl i) i /\ root_between (vget gl i) (vget (glo st') i)) /\
    (exists i, (i < nr)%nat /\ vget (get_root_info st') i <> 0) /\
    (forall i, (i < nr)%nat -> vget (get_root_info st') i <> 0 ->
       vget (glo st') i = 0 \/ Rabs (tlo st' - tl) <= tolerance st).
Proof.
  intros Hs E. pose proof (searchable_tol st Hs) as Ht. destruct Hs as (A & K & _ & L).
  destruct (r_check3_spec prob fuel st A K Ht L) as [(E' & _)|(s & r & E' & Sh & L' & _ & _ & _ & F)]; [congruence|].
  rewrite E in E'. injection E' as <- <-. destruct F as (tl & gl & F). exists tl, gl.
  assert (Hf : forall i, (i < nr)%nat -> vget (get_root_info st') i <> 0 <->
     watched st (vget gl i) i /\ root_between (vget gl i) (vget (glo st') i)).
  { intros i Li. rewrite <- hit_iff. destruct (fo_flags _ _ _ _ _ F) as (_ & Ff). unfold get_root_info.
    destruct (Ff i Li) as [(Hh & ->)|(Hh & ->)].
    - split; [auto|]. intros _. unfold Rsignum. destruct (Rlt_dec _ _); lra.
    - split; [intros X; lra|contradiction]. }
  assert (Hal : forall t g, evald prob st (tr st') t g -> forall i, (i < nr)%nat -> called st' t i (vget g i) /\ along st i t (vget g i)).
  { intros t g Ev i Li. split; [exact (evald_called _ _ _ _ _ Ev Li)|]. apply along_interp; [exact A|exact K|].
    destruct Ev as (y & q & -> & _ & X).
    intros Hc. destruct (X Hc) as (-> & ->). unfold vget. rewrite nth_vtab by exact Li. reflexivity. }
  split; [exact (fo_pos _ _ _ _ _ F)|].
  split; [destruct (fo_left _ _ _ _ _ F) as [X|X]; [left; exact X|right; exact (Hal _ _ X)]|].
  split; [exact (Hal _ _ (fo_right _ _ _ _ _ F))|].
  split; [exact Hf|]. split.
  - destruct (fo_some _ _ _ _ _ F) as (i & Li & Hh). exists i. split; [exact Li|]. apply Hf; [exact Li|]. apply hit_iff. exact Hh.
  - intros i Li Hi. apply Hf in Hi; [|exact Li]. apply hit_iff in Hi.
    destruct (fo_close _ _ _ _ _ F) as [X|X]; [right; rewrite <- tolerance_eq; exact X|].
    left. destruct Hi as [Hi|(_ & _ & Hi)]; [|exact Hi]. destruct (X i Li Hi).
Qed.

Lemma time_check_between (st : state) x y a : time_check st x = None -> time_check st y = None -> 0 <= a <= 1 ->
  time_check st (x + a * (y - x)) = None.
Proof.
  unfold time_check. cbn. set (tp := tn (nlp st) - hused st - _).
  destruct (Rltb ((x - tp) * hh st) 0) eqn:Ex; [discriminate|]. destruct (Rltb ((y - tp) * hh st) 0) eqn:Ey; [discriminate|].
  destruct (Rltb ((x + a * (y - x) - tp) * hh st) 0) eqn:Ez; [|reflexivity].
  apply Rltb_false in Ex, Ey. apply Rltb_true in Ez. intros _ _ Ha. exfalso.
  replace ((x + a * (y - x) - tp) * hh st) with ((1 - a) * ((x - tp) * hh st) + a * ((y - tp) * hh st)) in Ez by ring. nra.
Qed.

Lemma accepted_check (st : state) t : arrays st -> (kused st <= 5)%nat ->
  ((exists s, get_solution prob st t = Ret (s, Ok tt)) <-> time_check st t = None).
Proof.
  intros A K. split.
  - intros (s & E). pose proof (gs_eval prob st s t _ A K E) as G. destruct (time_check st t); [destruct G; discriminate|reflexivity].
  - intros Hc. destruct (eval_at prob st t A K) as (s & r & E & _). exists s. rewrite E.
    pose proof (gs_eval prob st s t _ A K E) as G. rewrite Hc in G. destruct G as (-> & _). reflexivity.
Qed.

(** A continuous function with a change of sign. *)
Lemma zero_inside (f : R -> R) x y : (forall z, (x <= z <= y \/ y <= z <= x) -> continuity_pt f z) -> f x * f y < 0 ->
  exists z, f z = 0 /\ Rabs (y - z) <= Rabs (y - x).
Proof.
  intros C P.
  assert (Main : forall f x y, x < y -> (forall z, x <= z <= y -> continuity_pt f z) -> f x * f y < 0 ->
    exists z, f z = 0 /\ x <= z <= y).
  { clear. intros f x y Hxy C P. apply prod_neg in P. destruct P as [(A & B)|(A & B)].
    - destruct (Ranalysis5.IVT_interv f x y C Hxy A B) as (z & Hz & E). exists z. split; [exact E|exact Hz].
    - destruct (Ranalysis5.IVT_interv (fun t => - f t) x y) as (z & Hz & E); try lra.
      + intros z Hz. apply continuity_pt_opp. exact (C z Hz).
      + exists z. split; [lra|exact Hz]. }
  destruct (Rtotal_order x y) as [Hxy|[->|Hxy]].
  - destruct (Main f x y Hxy) as (z & E & Hz); [intros z Hz; apply C; left; exact Hz|exact P|].
    exists z. split; [exact E|]. rewrite !Rabs_pos_eq by lra. lra.
  - exfalso. nra.
  - destruct (Main f y x Hxy) as (z & E & Hz); [intros z Hz; apply C; right; exact Hz|lra|].
    exists z. split; [exact E|]. rewrite !Rabs_left1 by lra. lra.
Qed.

(** C55, continuous root functions: the interpolated solution has a true zero
    within the tolerance of the reported time. *)
Theorem C55_true_root fuel (st st' : state) i f : searchable st -> r_check3 prob fuel st = Ret (st', RootFound) ->
  (i < nr)%nat -> vget (get_root_info st') i <> 0 ->
  (exists s, get_solution prob st (tlo st) = Ret (s, Ok tt)) ->
  (exists s, get_solution prob st (right_end st) = Ret (s, Ok tt)) ->
  (forall t s, get_solution prob st t = Ret (s, Ok tt) -> f t = p_root prob t (get_yy s) (get_yp s) i) ->
  (forall t, (tlo st <= t <= right_end st \/ right_end st <= t <= tlo st) -> continuity_pt f t) ->
  f (tlo st) = vget (glo st) i ->
  exists z, f z = 0 /\ Rabs (tlo st' - z) <= tolerance st.
Proof.
  intros Hs E Li Hi A1 A2 Hf Hc Hl. pose proof Hs as (A & K & _ & _).
  destruct (C55_root_bracketed fuel st st' Hs E) as (tl & gl & (a & b & Hab & Hb & Etl & Etr) & Hleft & Hright & Hflag & _ & Hclose).
  apply accepted_check in A1; [|exact A|exact K]. apply accepted_check in A2; [|exact A|exact K].
  assert (Ok_ : forall q, 0 <= q <= 1 -> exists s, get_solution prob st (tlo st + q * (right_end st - tlo st)) = Ret (s, Ok tt)).
  { intros q Hq. apply accepted_check; [exact A|exact K|]. apply time_check_between; assumption. }
  assert (Fr : f (tlo st') = vget (glo st') i).
  { destruct (Ok_ b ltac:(lra)) as (s & Es). rewrite <- Etr in Es. rewrite (Hf _ _ Es). destruct (Hright i Li) as (_ & X).
    symmetry. exact (X s Es). }
  assert (Fl : f tl = vget gl i).
  { destruct Hleft as [(-> & ->)|X]; [exact Hl|]. destruct (Ok_ a ltac:(lra)) as (s & Es). rewrite <- Etl in Es.
    rewrite (Hf _ _ Es). symmetry. exact (proj2 (X i Li) s Es). }
  destruct (Req_dec (vget (glo st') i) 0) as [Z|Z].
  - exists (tlo st'). split; [congruence|]. unfold Rminus. rewrite Rplus_opp_r, Rabs_R0.
    rewrite <- tolerance_eq. pose proof (searchable_tol st Hs). lra.
  - pose proof Hi as Hi0. apply Hflag in Hi; [|exact Li]. destruct Hi as (_ & [X|X]); [contradiction|].
    destruct (Hclose i Li Hi0) as [Y|Y]; [contradiction|].
    destruct (zero_inside f tl (tlo st')) as (z & Ez & Hz).
    + intros z Hz. apply Hc. destruct (Rle_dec (tlo st) (right_end st)); [left|right]; destruct Hz as [Hz|Hz]; nra.
    + rewrite Fl, Fr. exact X.
    + exists z. split; [exact Ez|]. lra.
Qed.

(** C56. *)
Theorem C56_search_terminates fuel (st : state) : searchable st ->
  Rabs (right_end st - tlo st) / tolerance st * 2 + 1 <= INR fuel ->
  exists st' r, r_check3 prob fuel st = Ret (st', r) /\
    INR (get_num_g_evals st' - get_num_g_evals st) <= 1 + 2 * (Rabs (right_end st - tlo st) / tolerance st).
Proof.
  intros Hs Hf. pose proof (searchable_tol st Hs) as Ht. destruct Hs as (A & K & _ & L). rewrite <- tolerance_eq in *.
  assert (Hd : Rabs (right_end st - tlo st) = Rabs (right_end st - tlo st) / root_ttol st * root_ttol st) by (field; lra).
  set (q := Rabs (right_end st - tlo st) / root_ttol st) in *.
  destruct (r_check3_spec prob fuel st A K Ht L) as [(_ & X)|(s & r & E & _ & _ & _ & N1 & N2 & _)].
  - exfalso. rewrite Hd in X. nra.
  - exists s, r. split; [exact E|]. unfold get_num_g_evals.
    replace (nge s - nge st)%nat with (S (nge s - (nge st + 1))) by lia. rewrite S_INR. rewrite Hd in N2. nra.
Qed.

(** C57, one interval. *)
Theorem C57_no_root_missed fuel (st st' : state) : searchable st -> r_check3 prob fuel st = Ret (st', RootContinue) ->
  tlo st' = right_end st /\
  forall i, (i < nr)%nat ->
    called st' (right_end st) i (vget (glo st') i) /\ along st i (right_end st) (vget (glo st') i) /\
    (watched st (vget (glo st) i) i -> vget (glo st') i <> 0 /\ 0 <= vget (glo st) i * vget (glo st') i).
Proof.
  intros Hs E. pose proof (searchable_tol st Hs) as Ht. destruct Hs as (A & K & _ & L).
  destruct (r_check3_spec prob fuel st A K Ht L) as [(E' & _)|(s & r & E' & Sh & L' & _ & _ & _ & F)]; [congruence|].
  rewrite E in E'. injection E' as <- <-. destruct F as (F1 & F2 & _ & F3). split; [exact F1|].
  intros i Li. split; [exact (evald_called _ _ _ _ _ F2 Li)|]. split.
  - apply along_interp; [exact A|exact K|]. destruct F2 as (y & q & -> & _ & X). intros Hc. destruct (X Hc) as (-> & ->).
    unfold vget. rewrite nth_vtab by exact Li. reflexivity.
  - intros W. specialize (F3 i Li). rewrite hit_iff in F3. unfold root_between in F3.
    split; [intros Z; apply F3; auto|]. destruct (Rlt_le_dec (vget (glo st) i * vget (glo st') i) 0) as [Z|Z]; [|exact Z].
    destruct F3. auto.
Qed.

(** C60, what is reported instead: the sign of the left value, so -1 for a
    component increasing through zero and +1 for a decreasing one. *)
Theorem C60_direction_inverted fuel (st st' : state) : searchable st -> r_check3 prob fuel st = Ret (st', RootFound) ->
  exists tl gl,
    (exists a b, 0 <= a < b /\ b <= 1 /\ tl = tlo st + a * (right_end st - tlo st) /\
       tlo st' = tlo st + b * (right_end st - tlo st)) /\
    (tl = tlo st /\ gl = glo st \/ forall i, (i < nr)%nat -> called st' tl i (vget gl i)) /\
    (forall i, (i < nr)%nat -> called st' (tlo st') i (vget (glo st') i)) /\
    forall i, (i < nr)%nat -> vget (get_root_info st') i <> 0 ->
      (vget gl i < 0 <= vget (glo st') i /\ vget (get_root_info st') i = -1) \/
      (vget (glo st') i <= 0 <= vget gl i /\ vget (get_root_info st') i = 1).
Proof.
  intros Hs E. pose proof (searchable_tol st Hs) as Ht. destruct Hs as (A & K & _ & L).
  destruct (r_check3_spec prob fuel st A K Ht L) as [(E' & _)|(s & r & E' & Sh & L' & _ & _ & _ & F)]; [congruence|].
  rewrite E in E'. injection E' as <- <-. destruct F as (tl & gl & F). exists tl, gl.
  split; [exact (fo_pos _ _ _ _ _ F)|].
  split; [destruct (fo_left _ _ _ _ _ F) as [X|X]; [left; exact X|right; intros i Li; exact (evald_called _ _ _ _ _ X Li)]|].
  split; [intros i Li; exact (evald_called _ _ _ _ _ (fo_right _ _ _ _ _ F) Li)|].
  intros i Li Hi. destruct (fo_flags _ _ _ _ _ F) as (_ & Ff). unfold get_root_info in *.
  destruct (Ff i Li) as [(Hh & Ev)|(_ & Ev)]; [|congruence]. rewrite Ev. unfold Rsignum.
  apply hit_iff in Hh. destruct Hh as (_ & Hh). unfold root_between in Hh.
  destruct (Rlt_dec (vget gl i) 0) as [X|X]; [left|right]; (split; [|reflexivity]); destruct Hh as [Hh|Hh]; nra.
Qed.

(** ** C61: the check at the last root *)
Theorem C61_recheck (st : state) : arrays st -> (kused st <= 5)%nat -> hh st <> 0 -> irfnd st = true ->
  exists st' r g, r_check2 prob st = Ret (st', r) /\ tlo st' = tlo st /\ gactive st' = gactive st /\
  (forall i, (i < nr)%nat -> called st' (tlo st) i (g i) /\ along st i (tlo st) (g i)) /\
  let zero i := (i < nr)%nat /\ bget (gactive st) i = true /\ g i = 0 in
  ((forall i, ~ zero i) /\ r = Ok RootContinue /\
     forall i, (i < nr)%nat -> vget (glo st') i = g i /\ vget (get_root_info st') i = 0) \/
  ((exists i, zero i) /\ exists tp gp,
     (* slightly later *)
     Rabs (tp - tlo st) = tolerance st /\ 0 < (tp - tlo st) * hh st /\
     (forall i, (i < nr)%nat -> called st' tp i (gp i) /\ ((tp - tn (nlp st)) * hh st < 0 -> along st i tp (gp i))) /\
     let later i := (i < nr)%nat /\ bget (gactive st) i = true /\ gp i = 0 in
     (((exists i, zero i /\ later i) /\ r = Err (EIda (CloseRoots (tlo st)))) \/
      ((forall i, ~ (zero i /\ later i)) /\ (exists i, later i) /\ r = Ok RootFound) \/
      ((forall i, ~ later i) /\ r = Ok RootContinue)) /\
     (forall q, r = Ok q -> forall i, (i < nr)%nat ->
        (zero i -> vget (glo st') i = gp i /\ gp i <> 0) /\ (~ zero i -> vget (glo st') i = g i) /\
        (vget (get_root_info st') i = 1 /\ (zero i \/ later i) \/
         vget (get_root_info st') i = 0 /\ ~ zero i /\ ~ later i))).
Proof.
  intros A K Hh Hi. destruct (r_check2_spec prob st A K) as [(X & _)|(_ & st' & r & g & E & Rc)]; [congruence|].
  exists st', r, (vget g). split; [exact E|]. destruct Rc as [Sh Ht Ha Ev (Lg & Lr) Cs].
  split; [exact Ht|]. split; [exact Ha|]. split.
  { intros i Li. split; [exact (evald_called _ _ _ _ _ Ev Li)|]. apply along_interp; [exact A|exact K|].
    destruct Ev as (y & q & -> & _ & X). intros Hc. destruct (X Hc) as (-> & ->). unfold vget. rewrite nth_vtab by exact Li. reflexivity. }
  cbv zeta. destruct Cs as [(Z & Er & Eg & Ei)|((i0 & L0 & Z0) & y & q & Hin & Hint & Hgl & Hr)].
  - left. split; [intros i (Li & W); exact (Z i Li W)|]. split; [exact Er|]. intros i Li. rewrite Eg. split; [reflexivity|]. exact (Ei i Li).
  - right. split; [exists i0; split; [exact L0|exact Z0]|]. cbv zeta in *.
    set (tp := tlo st + root_ttol st * Rsignum (hh st)) in *. set (gp := vtab nr (p_root prob tp y q)) in *.
    exists tp, (vget gp).
    assert (Hs : Rabs (tp - tlo st) = tolerance st /\ 0 < (tp - tlo st) * hh st).
    { rewrite <- tolerance_eq. assert (Hp : 0 < root_ttol st).
      { rewrite tolerance_eq. unfold tolerance, get_current_setp.
        pose proof (Rabs_pos (get_current_time st)). pose proof (Rabs_pos_lt _ Hh). nra. }
      replace (tp - tlo st) with (root_ttol st * Rsignum (hh st)) by (unfold tp; ring). unfold Rsignum.
      destruct (Rlt_dec (hh st) 0).
      - split; [rewrite Rabs_left by lra; ring|nra].
      - split; [rewrite Rabs_pos_eq by lra; ring|]. assert (0 < hh st) by (destruct (Rtotal_order (hh st) 0) as [|[|]]; lra). nra. }
    split; [exact (proj1 Hs)|]. split; [exact (proj2 Hs)|]. split.
    { intros i Li. assert (Ec : vget gp i = p_root prob tp y q i) by (unfold gp, vget; rewrite nth_vtab by exact Li; reflexivity).
      split; [exists y, q; auto|]. intros Hlt. apply along_interp; [exact A|exact K|]. intros Hc. destruct (Hint Hlt Hc) as (<- & <-). exact Ec. }
    destruct r as [q0|e].
    + destruct Hr as (R1 & R2 & R3 & R4).
      assert (Nz : forall i, ~ (((i < nr)%nat /\ bget (gactive st) i = true /\ vget g i = 0) /\ ((i < nr)%nat /\ bget (gactive st) i = true /\ vget gp i = 0))).
      { intros i ((Li & B1) & (_ & B2)). apply (R1 i Li). split; assumption. }
      split.
      * right. destruct q0.
        -- left. split; [exact Nz|]. split; [|reflexivity]. destruct (proj1 R2 eq_refl) as (i & Li & W). exists i. split; [exact Li|exact W].
        -- right. split; [|reflexivity]. intros i (Li & W). assert (RootContinue = RootFound); [|discriminate]. apply R2. exists i. split; [exact Li|exact W].
      * intros q1 _ i Li. split; [|split].
        -- intros (_ & W). split; [exact (R4 i Li W)|]. intros Z. apply (R1 i Li). split; [exact W|]. split; [exact (proj1 W)|exact Z].
        -- intros NZ. destruct (Hgl i) as [X|(X & _)]; [exact X|]. destruct NZ. split; [exact Li|exact X].
        -- destruct (R3 i Li) as [(B & [W|W])|(B & N1 & N2)]; [left|left|right]; (split; [exact B|]).
           ++ left. split; [exact Li|exact W].
           ++ right. split; [exact Li|exact W].
           ++ split; intros (_ & W); [exact (N1 W)|exact (N2 W)].
    + destruct Hr as (-> & i & Li & W1 & W2). split; [|discriminate]. left. split; [|reflexivity].
      exists i. split; (split; [exact Li|assumption]).
Qed.

(** ** Calls of [solve] *)
Variable ewt_set : list R -> list R.
Hypothesis Hl : @nls_lawful R NSt _.

Lemma pieces_search c (st a : state) : config_ok c -> ordok st -> J prob c None st -> pieces prob ewt_set st a ->
  nst a <> 0%nat -> length (glo a) = nr -> searchable a.
Proof.
  intros Hc O Hj Pc Hz L. destruct (pieces_J prob ewt_set Hl c st a O Hj Pc) as (Oa & Ja).
  destruct (rl_h _ _ _ (proj2 Ja) (or_introl Hz)) as (Hh & _). destruct Oa as (A & M & _ & K & _).
  split; [exact A|]. split; [lia|]. split; [exact Hh|exact L].
Qed.

(** The stored left values belong to the stored left time, except right after
    the start, and except where the re-check found a zero. *)
Definition left_ok (c : @config R) (st : state) : Prop :=
  length (glo st) = nr /\ forall i, (i < nr)%nat -> bget (gactive st) i = true ->
    called st (tlo st) i (vget (glo st) i) \/ called st (tlo st) i 0 \/ tlo st = g_t0 c.

Lemma left_still c (a b : state) : left_ok c a -> still a b -> left_ok c b.
Proof.
  intros (L & X) (E & evs & T). unfold rk in E. injection E as E1 E2 E3 E4 E5 E6 E7. split; [congruence|].
  intros i Li. rewrite E2, E3, E4. intros Ha. destruct (X i Li Ha) as [Y|[Y|Y]]; [left|right; left|auto]; exact (called_more _ _ _ _ _ _ T Y).
Qed.

Lemma left_recheck c (a b : state) r : arrays a -> (kused a <= 5)%nat -> left_ok c a -> r_check2 prob a = Ret (b, r) -> left_ok c b.
Proof.
  intros A K Hp E. destruct (r_check2_spec prob a A K) as [(_ & X)|(_ & s & q & g & X & Rc)].
  - rewrite X in E. injection E as <- _. exact Hp.
  - rewrite X in E. injection E as -> ->. destruct Rc as [Sh Ht Ha Ev (Lg & Lr) Cs]. split; [exact Lg|].
    intros i Li Hi. rewrite Ht. pose proof (evald_called _ _ _ _ _ Ev Li) as Hcl.
    destruct Cs as [(_ & _ & -> & _)|(_ & y & q0 & _ & _ & Hgl & _)]; [left; exact Hcl|].
    destruct (Hgl i) as [->|((_ & Z) & _)]; [left; exact Hcl|]. right. left. rewrite <- Z. exact Hcl.
Qed.

Lemma left_search c fuel (a b : state) r : searchable a -> r_check3 prob fuel a = Ret (b, r) -> left_ok c b.
Proof.
  intros Hs E. pose proof (searchable_tol a Hs) as Ht. destruct Hs as (A & K & _ & L).
  destruct (r_check3_spec prob fuel a A K Ht L) as [(E' & _)|(s & q & E' & Sh & L' & _ & _ & _ & F)]; [congruence|].
  rewrite E in E'. injection E' as <- <-. split; [exact L'|]. intros i Li _. left. destruct r.
  - destruct F as (tl & gl & F). exact (evald_called _ _ _ _ _ (fo_right _ _ _ _ _ F) Li).
  - destruct F as (F1 & F2 & _). rewrite F1. exact (evald_called _ _ _ _ _ F2 Li).
Qed.

Lemma fresh_time c (st : state) : J prob c None st -> nst st = 0%nat -> tn (nlp st) = g_t0 c.
Proof.
  intros (Tl & _) Hz. rewrite (tl_tn _ _ _ _ Tl). unfold now. pose proof (tl_n _ _ _ _ Tl) as X. rewrite Hz in X.
  destruct (steps (tr st)); [reflexivity|discriminate].
Qed.

Lemma sign_keep x y z : 0 < x * y -> z <> 0 -> 0 <= y * z -> 0 < x * z.
Proof.
  intros A B C. destruct (Rtotal_order x 0) as [Q|[Q|Q]]; destruct (Rtotal_order z 0) as [Q2|[Q2|Q2]]; try contradiction; try nra;
    destruct (Rtotal_order y 0) as [Q1|[Q1|Q1]]; nra.
Qed.

Section Life.
Variable c : @config R.
Hypothesis Hc : config_ok c.

Lemma call_end fuel rfuel (st : state) tout tret itask st' t r : ordok st -> J prob c None st -> left_ok c st ->
  solve prob ewt_set fuel rfuel st tout tret itask = Ret (st', t, r) -> root_end prob ewt_set st (left_ok c) tret st' t r.
Proof.
  intros O Hj Hp E. refine (solve_roots prob ewt_set Hl st O (left_ok c) _ _ _ _ _ _ _ _ _ _ _ _ _ E).
  - exact (left_still c).
  - intros a b Hz _ Ht _ _ _ E1. destruct (r_check1_spec prob a b E1) as (T1 & L1 & _). split; [exact L1|].
    intros i Li _. right. right. rewrite T1, Ht. exact (fresh_time c st Hj Hz).
  - intros a b Pc Hz _ Ha E2. destruct (pieces_J prob ewt_set Hl c st a O Hj Pc) as ((A & M & _ & K & _) & _).
    eapply left_recheck; [exact A|lia|exact Ha|exact E2].
  - intros f a b Pc Hz Ha E3. eapply left_search; [|exact E3]. eapply pieces_search; [exact Hc|exact O|exact Hj|exact Pc|exact Hz|exact (proj1 Ha)].
  - unfold left_ok, called in *. unfold task_set. destruct itask; exact Hp.
Qed.

Lemma end_left (st : state) tret st' t r : ordok st -> J prob c None st ->
  root_end prob ewt_set st (left_ok c) tret st' t r -> left_ok c st'.
Proof.
  intros O Hj E.
  assert (Ak : forall a, pieces prob ewt_set st a -> arrays a /\ (kused a <= 5)%nat).
  { intros a Pc. destruct (pieces_J prob ewt_set Hl c st a O Hj Pc) as ((A & M & _ & K & _) & _). split; [exact A|lia]. }
  destruct E as [Hp _|a e Pc Hz _ Ha E2 _ _|a b Pc Hz _ Ha E2 -> _ _|f a b Pc Hz Ha E3 -> _ _].
  - exact Hp.
  - destruct (Ak a Pc) as (A & K). exact (left_recheck c _ _ _ A K Ha E2).
  - destruct (Ak a Pc) as (A & K). eapply left_still; [exact (left_recheck c _ _ _ A K Ha E2)|]. apply still_quiet; reflexivity.
  - eapply left_still; [eapply left_search; [|exact E3]|apply still_quiet; reflexivity].
    eapply pieces_search; [exact Hc|exact O|exact Hj|exact Pc|exact Hz|exact (proj1 Ha)].
Qed.

Lemma reach_left yy0 yp0 (st : state) : reach prob ewt_set c yy0 yp0 st -> left_ok c st.
Proof.
  intros Hr. induction Hr as [st E|fuel rfuel st k st' rep Hr IH E].
  - pose proof (new_fields prob _ _ _ E) as F. destruct F as (_ & _ & _ & _ & _ & F & _).
    split; [exact F|]. intros i Li Ha. exfalso. change (gactive (configure c st)) with (gactive st) in Ha.
    unfold ida_new in E. destruct (_ && _); [|discriminate]. apply ret_inj in E. subst st.
    cbn [gactive] in Ha. unfold bget in Ha. rewrite nth_repeat in Ha. discriminate.
  - destruct (reach_ordJ prob ewt_set Hl c yy0 yp0 st Hc Hr) as (O & Hj). unfold api_call in E. destruct k as [tout tret itask|t|t k].
    + apply bind_ret_inv in E. destruct E as (((s & t) & r) & E & X). injection X as <- <-.
      exact (end_left st _ _ _ _ O Hj (call_end _ _ _ _ _ _ _ _ _ O Hj IH E)).
    + apply bind_ret_inv in E. destruct E as ((s & r) & E & X). injection X as <- <-. exact (left_still c _ _ IH (still_gs _ _ _ _ _ E)).
    + apply bind_ret_inv in E. destruct E as ((s & r) & E & X). injection X as <- <-. exact IH.
Qed.

(** C55 for the user: the root functions were called at two points within the
    tolerance of the returned time, and between them every reported component
    vanishes or changes sign; the only exception are roots within the tolerance
    of the initial time.  Something is reported. *)
Theorem C55_reported_roots yy0 yp0 (st : state) fuel rfuel tout tret itask st' t :
  reach prob ewt_set c yy0 yp0 st -> solve prob ewt_set fuel rfuel st tout tret itask = Ret (st', t, Ok RootReturn) ->
  (exists i, (i < nr)%nat /\ vget (get_root_info st') i <> 0) /\
  forall i, (i < nr)%nat -> vget (get_root_info st') i <> 0 ->
    Rabs (t - g_t0 c) <= tolerance st' \/
    exists ta tb v w, Rabs (t - ta) <= tolerance st' /\ Rabs (t - tb) <= tolerance st' /\
      called st' ta i v /\ called st' tb i w /\ v * w <= 0.
Proof.
  intros Hr E. destruct (reach_ordJ prob ewt_set Hl c yy0 yp0 st Hc Hr) as (O & Hj).
  pose proof (call_end _ _ _ _ _ _ _ _ _ O Hj (reach_left _ _ _ Hr) E) as X.
  destruct X as [_ X|a e Pc Hz _ Ha E2 _ X|a b Pc Hz _ Ha E2 -> -> _|f a b Pc Hz Ha E3 -> -> _]; try congruence.
  - destruct (pieces_J prob ewt_set Hl c st a O Hj Pc) as ((A & M & _ & K & _) & Ja).
    destruct (rl_h _ _ _ (proj2 Ja) (or_introl Hz)) as (Hh & _).
    destruct (irfnd a) eqn:Ei.
    2:{ destruct (r_check2_spec prob a A ltac:(lia)) as [(_ & Y)|(Y & _)]; congruence. }
    destruct (C61_recheck a A ltac:(lia) Hh Ei) as (s & r & g & E' & Et & _ & Hg & Cs). rewrite E2 in E'. injection E' as <- <-.
    pose proof (shell_tol _ _ (r_check2_shell prob _ _ _ E2)) as Tl.
    assert (Tp : 0 < tolerance a).
    { unfold tolerance, get_current_setp. pose proof (Rabs_pos (get_current_time a)). pose proof (Rabs_pos_lt _ Hh). nra. }
    change (tolerance (set_tretlast (tlo b) b)) with (tolerance b). change (get_root_info (set_tretlast (tlo b) b)) with (get_root_info b).
    cbv zeta in Cs. destruct Cs as [(_ & D & _)|(_ & tp & gp & Tp1 & _ & Hgp & Cs & Fl)]; [discriminate|].
    destruct Cs as [(_ & D)|[(_ & (i0 & L0) & _)|(_ & D)]]; try discriminate. split.
    + exists i0. split; [exact (proj1 L0)|]. destruct (Fl _ eq_refl i0 (proj1 L0)) as (_ & _ & [(-> & _)|(_ & _ & N)]); [lra|contradiction].
    + intros i Li Hi. right. rewrite Et.
      assert (Hz0 : Rabs (tlo a - tlo a) <= tolerance b) by (unfold Rminus; rewrite Rplus_opp_r, Rabs_R0; lra).
      destruct (Fl _ eq_refl i Li) as (_ & _ & [(_ & [(_ & _ & Z)|(_ & _ & Z)])|(Y & _ & _)]); [| |lra].
      * exists (tlo a), (tlo a), (g i), (g i). split; [exact Hz0|]. split; [exact Hz0|].
        split; [exact (proj1 (Hg i Li))|]. split; [exact (proj1 (Hg i Li))|]. rewrite Z. lra.
      * assert (Hz1 : Rabs (tlo a - tp) <= tolerance b) by (rewrite Rabs_minus_sym, Tp1; lra).
        exists tp, tp, (gp i), (gp i). split; [exact Hz1|]. split; [exact Hz1|].
        split; [exact (proj1 (Hgp i Li))|]. split; [exact (proj1 (Hgp i Li))|]. rewrite Z. lra.
  - pose proof (pieces_search c st a Hc O Hj Pc Hz (proj1 Ha)) as Hs.
    destruct (C55_root_bracketed _ _ _ Hs E3) as (tl & gl & _ & Hleft & Hright & Hflag & Hsome & Hclose).
    assert (Sh : shell prob a b).
    { destruct (r_check3_spec prob f a (proj1 Hs) (proj1 (proj2 Hs)) (searchable_tol a Hs) (proj2 (proj2 (proj2 Hs)))) as [(Y & _)|(s & r & Y & S & _)]; [congruence|].
      rewrite E3 in Y. injection Y as <- <-. exact S. }
    destruct (shell_more _ _ Sh) as (evs & Tr). pose proof (shell_tol _ _ Sh) as Tl.
    split; [exact Hsome|]. intros i Li Hi. cbn [get_root_info iroots set_tretlast set_irfnd] in Hi.
    match goal with |- context [tolerance ?x] => change (tolerance x) with (tolerance b) end. rewrite Tl.
    assert (Hz0 : Rabs (tlo b - tlo b) <= tolerance a).
    { unfold Rminus. rewrite Rplus_opp_r, Rabs_R0. rewrite <- tolerance_eq. pose proof (searchable_tol a Hs). lra. }
    pose proof (proj1 (Hright i Li)) as Cr.
    destruct (Hclose i Li Hi) as [Z|Z].
    + right. exists (tlo b), (tlo b), (vget (glo b) i), (vget (glo b) i). repeat (split; [first [exact Hz0|exact Cr]|]). rewrite Z. lra.
    + assert (Hb : watched a (vget gl i) i /\ root_between (vget gl i) (vget (glo b) i)) by (apply Hflag; [exact Li|exact Hi]).
      destruct Hb as ((Hact & _) & Hb).
      assert (Hb' : vget gl i * vget (glo b) i <= 0) by (destruct Hb as [Hb|Hb]; [rewrite Hb|]; lra).
      destruct Hleft as [(-> & ->)|Hleft].
      * destruct (proj2 Ha i Li Hact) as [Y|[Y|Y]].
        -- right. exists (tlo a), (tlo b), (vget (glo a) i), (vget (glo b) i). split; [exact Z|]. split; [exact Hz0|].
           split; [exact (called_more _ _ _ _ _ _ Tr Y)|]. split; [exact Cr|exact Hb'].
        -- right. exists (tlo a), (tlo b), 0, (vget (glo b) i). split; [exact Z|]. split; [exact Hz0|].
           split; [exact (called_more _ _ _ _ _ _ Tr Y)|]. split; [exact Cr|lra].
        -- left. rewrite <- Y. exact Z.
      * right. exists tl, (tlo b), (vget gl i), (vget (glo b) i). split; [exact Z|]. split; [exact Hz0|].
        split; [exact (proj1 (Hleft i Li))|]. split; [exact Cr|exact Hb'].
Qed.

(** C57 for the user: while calls return without a root, an active component
    keeps its sign; both directions are watched. *)
Theorem C57_call_keeps_sign yy0 yp0 (st : state) fuel rfuel tout tret itask st' t r i :
  reach prob ewt_set c yy0 yp0 st -> steps (tr st) <> [] -> irfnd st = false ->
  solve prob ewt_set fuel rfuel st tout tret itask = Ret (st', t, r) -> r <> Ok RootReturn ->
  (i < nr)%nat -> bget (gactive st) i = true -> nget (g_rootdir c) i = 0%nat -> vget (glo st) i <> 0 ->
  bget (gactive st') i = true /\ 0 < vget (glo st) i * vget (glo st') i /\
  (tlo st' = tlo st /\ glo st' = glo st \/ called st' (tlo st') i (vget (glo st') i)).
Proof.
  intros Hr Hst Hirf E Hnr Li Hact Hdir Hne. destruct (reach_ordJ prob ewt_set Hl c yy0 yp0 st Hc Hr) as (O & Hj).
  pose proof (reach_left _ _ _ Hr) as (Lg & _).
  assert (Hz : nst st <> 0%nat).
  { rewrite <- (tl_n _ _ _ _ (proj1 Hj)). destruct (steps (tr st)); [congruence|discriminate]. }
  assert (Rd : forall a, pieces prob ewt_set st a -> nget (rootdir a) i = 0%nat).
  { intros a Pc. destruct (pieces_J prob ewt_set Hl c st a O Hj Pc) as (_ & (Tl & _)).
    pose proof (tl_cfg _ _ _ _ Tl) as Y. unfold cfg_is in Y. destruct Y as (_ & _ & _ & _ & _ & _ & _ & _ & -> & _). exact Hdir. }
  set (P := fun a : state => length (glo a) = nr /\ bget (gactive a) i = true /\ 0 < vget (glo st) i * vget (glo a) i /\
    (tlo a = tlo st /\ glo a = glo st \/ called a (tlo a) i (vget (glo a) i))).
  assert (X : root_end prob ewt_set st P tret st' t r).
  { refine (solve_roots prob ewt_set Hl st O P _ _ _ _ _ _ _ _ _ _ _ _ _ E).
    - intros a b (P1 & P2 & P3 & P4) (E0 & evs & T). unfold rk in E0. injection E0 as E1 E2 E3 E4 E5 E6 E7.
      unfold P. rewrite E2, E3, E4. split; [exact P1|]. split; [exact P2|]. split; [exact P3|].
      destruct P4 as [P4|P4]; [left; exact P4|right; exact (called_more _ _ _ _ _ _ T P4)].
    - intros a b Hz0. contradiction.
    - intros a b Pc Hza Hi Hp E2. destruct (pieces_J prob ewt_set Hl c st a O Hj Pc) as ((A & M & _ & K & _) & _).
      destruct (r_check2_spec prob a A ltac:(lia)) as [(_ & Y)|(Y & _)]; [|congruence]. rewrite Y in E2. injection E2 as <-. exact Hp.
    - intros f a b Pc Hza (P1 & P2 & P3 & P4) E3.
      pose proof (pieces_search c st a Hc O Hj Pc Hza P1) as Hs.
      destruct (C57_no_root_missed _ _ _ Hs E3) as (T1 & Y). destruct (Y i Li) as (Y1 & _ & Y2).
      destruct Y2 as (Y2 & Y3). { split; [exact P2|left; exact (Rd a Pc)]. }
      destruct (r_check3_spec prob f a (proj1 Hs) (proj1 (proj2 Hs)) (searchable_tol a Hs) P1) as [(Z & _)|(s & q & Z & _ & Z1 & Z2 & _)]; [congruence|].
      rewrite E3 in Z. injection Z as <- _. unfold P. split; [exact Z1|]. split; [apply Z2; [exact Li|left; exact P2]|].
      split; [|right; rewrite T1; exact Y1].
      exact (sign_keep _ _ _ P3 Y2 Y3).
    - unfold P, task_set. destruct itask; (split; [exact Lg|]; split; [exact Hact|]; split; [exact (Rsqr_pos_lt _ Hne)|left; auto]). }
  destruct X as [(_ & P2 & P3 & P4) _|a e Pc Hza Hi _ E2 _ _|a b _ _ _ _ _ _ _ D|f a b _ _ _ _ _ _ D]; try congruence.
  - split; [exact P2|]. split; [exact P3|exact P4].
  - exfalso. destruct (pieces_J prob ewt_set Hl c st a O Hj Pc) as ((A & M & _ & K & _) & _).
    destruct (r_check2_spec prob a A ltac:(lia)) as [(_ & Y)|(Y & _)]; congruence.
Qed.

Lemma fresh_root_fields yy0 yp0 (st0 : state) : ida_new prob yy0 yp0 = Ret st0 ->
  nst (configure c st0) = 0%nat /\ phi (configure c st0) = yy0 :: yp0 :: repeat (vzero (model_size prob)) 4 /\
  gactive (configure c st0) = repeat false nr /\ glo (configure c st0) = vzero nr.
Proof.
  intros En. unfold ida_new in En. destruct (_ && _); [|discriminate]. apply ret_inj in En. subst st0.
  split; [reflexivity|]. split; [reflexivity|]. split; reflexivity.
Qed.

Lemma first_step_blind (st : state) p0 p1 fuel rfuel tout tret itask st' t :
  ordok st -> J prob c None st -> J prob c None st' -> nst st = 0%nat ->
  nth_error (phi st) 0 = Some p0 -> nth_error (phi st) 1 = Some p1 -> gactive st = repeat false nr -> glo st = vzero nr ->
  (forall i, (i < nr)%nat -> p_root prob (g_t0 c) p0 p1 i <> 0) ->
  solve prob ewt_set fuel rfuel st tout tret itask = Ret (st', t, Ok RootReturn) ->
  (2 <= length (steps (tr st')))%nat.
Proof.
  intros O Hj Hj' Fz Fp0 Fp1 Fa Fgl Hg E.
  assert (Ft : tn (nlp st) = g_t0 c) by (exact (fresh_time c st Hj Fz)).
  rewrite (tl_n _ _ _ _ (proj1 Hj')).
  set (P := fun a : state => forall i, (i < nr)%nat -> bget (gactive a) i = false).
  set (Q := fun a : state => length (glo a) = nr /\ P a).
  assert (Pq : forall a b, Q a -> still a b -> Q b).
  { intros a b Ha (E0 & _). unfold rk in E0. injection E0 as E1 E2 E3 E4 E5 E6 E7. unfold Q, P. rewrite E4.
    replace (glo b) with (glo a) by congruence. exact Ha. }
  assert (P1 : forall a b, nst st = 0%nat -> nst a = 0%nat -> tn (nlp a) = tn (nlp st) -> phi a = phi st -> gactive a = gactive st ->
    Q a -> r_check1 prob a = Ret b -> Q b).
  { intros a b _ _ Et Ep _ (_ & Ha) E1. destruct (r_check1_spec prob a b E1) as (_ & Lb & _ & _ & X).
    split; [exact Lb|]. intros i Li.
    rewrite (X p0 p1) with (i := i); [exact (Ha i Li)| | | |exact Li].
    - rewrite Ep. exact Fp0.
    - rewrite Ep. exact Fp1.
    - rewrite Et, Ft. exact Hg. }
  assert (P0 : Q (task_set st tout itask)).
  { split. { replace (glo (task_set st tout itask)) with (glo st) by (destruct itask; reflexivity). rewrite Fgl. apply repeat_length. }
    intros i Li. replace (gactive (task_set st tout itask)) with (gactive st) by (destruct itask; reflexivity).
    rewrite Fa. unfold bget. apply nth_repeat. }
  destruct (solve_run _ _ _ _ _ _ _ _ _ _ _ E) as [A|(s0 & s & nl & m & Ent & Lo & F)].
  - exfalso. destruct (solve_start_cases _ _ _ _ _ _ _ _ A) as [(Hz & s & e & X & D)|[(Hz & s & l & E1 & E2 & E3 & E4 & D)|(Hz & _)]]; [congruence|congruence|].
    apply Hz. destruct itask; exact Fz.
  - pose proof (enters_head prob ewt_set _ _ _ _ _ _ Ent) as Hd.
    destruct (ends_nst prob ewt_set Hl _ _ _ _ _ _ _ _ _ _ _ _ O Hd Lo F) as (Hn & _).
    destruct (start_nst prob ewt_set _ _ _ _ _ _ Ent) as (Hn0 & _).
    assert (Hm : m = 1%nat /\ exists s1 s2 u, pre_step prob ewt_set s tret nl = Ret (inr s1) /\ step prob rfuel s1 = Ret (s2, Ok u) /\
      post_step prob rfuel s2 tout tret itask = Ret (st', t, Ok RootReturn)).
    { inversion F as [x1 x2 x3 Ep|s1 s2 e x1 x2 x3 Ep Es Ef|s1 s2 u x1 x2 x3 Ep Es Ef Hne]; subst.
      - exfalso. apply still_pre in Ep. exact (proj2 Ep eq_refl).
      - exfalso. apply still_failed in Ef. destruct Ef as (_ & D). discriminate.
      - split; [reflexivity|]. exists s1, s2, u. auto. }
    destruct Hm as (-> & s1 & s2 & u & Ep & Es & Ef).
    destruct nl as [|nl]; [|lia]. exfalso.
    assert (s = s0) as -> by (inversion Lo; [reflexivity|lia]).
    assert (Ps0 : Q s0).
    { unfold enters in Ent. destruct (solve_start_cases _ _ _ _ _ _ _ _ Ent) as [(Hz & s & e & X & D)|[(Hz & s & l & E1 & E2 & E3 & E4 & D)|(Hz & _)]]; [discriminate| |].
      - injection D as ->. eapply Pq; [|exact (still_perf prob _ _ _ E3)].
        refine (first_call_P prob ewt_set st Q Pq P1 _ _ _ Fz Hz _ _ _ P0 E1); destruct itask; reflexivity.
      - destruct Hz. destruct itask; exact Fz. }
    pose proof (still_pre prob ewt_set _ _ _ _ Ep) as Sp. cbv iota in Sp.
    pose proof (head_step prob ewt_set _ _ _ _ _ _ _ _ _ _ Hd Ep Es) as Pc2.
    assert (O1 : ordok s1).
    { apply (pieces_ord prob ewt_set Hl st); [exact O|]. pose proof (pre_step_shell _ _ _ _ _ _ Ep) as (S1 & _).
      eapply pieces_shell; [exact (hd_pieces _ _ _ _ _ _ Hd)|exact S1]. }
    pose proof (Pq _ _ (Pq _ _ Ps0 Sp) (still_step prob Hl _ _ _ _ O1 Es)) as (Lg & Ps2).
    pose proof (pieces_search c st s2 Hc O Hj Pc2 (step_ok_nst _ _ _ _ _ Es) Lg) as Hs.
    unfold post_step in Ef. apply bind_ret_inv in Ef. destruct Ef as (y & Ey & Ef). cbv beta in Ef.
    destruct (0 <? nrtfn s2)%nat.
    + apply bind_ret_inv in Ey. destruct Ey as ((s3 & r3) & E3 & Ey). cbv beta iota in Ey. destruct r3.
      * destruct (C55_root_bracketed _ _ _ Hs E3) as (tl & gl & _ & _ & _ & Hflag & (i & Li & Hi) & _).
        apply Hflag in Hi; [|exact Li]. destruct Hi as ((Hi & _) & _). rewrite (Ps2 i Li) in Hi. discriminate.
      * injection Ey as <-. apply still_stop2 in Ef. exact (proj2 Ef eq_refl).
    + injection Ey as <-. apply still_stop2 in Ef. exact (proj2 Ef eq_refl).
Qed.

(** C59, what happens instead: as long as all root functions are different from
    zero at the start, no root is reported in the first step, whatever they do
    there: all components start inactive. *)
Theorem C59_first_step_blind yy0 yp0 (st0 : state) fuel rfuel tout tret itask st' t :
  ida_new prob yy0 yp0 = Ret st0 -> (forall i, (i < nr)%nat -> p_root prob (g_t0 c) yy0 yp0 i <> 0) ->
  solve prob ewt_set fuel rfuel (configure c st0) tout tret itask = Ret (st', t, Ok RootReturn) ->
  (2 <= length (steps (tr st')))%nat.
Proof.
  intros En Hg E.
  assert (Hr : reach prob ewt_set c yy0 yp0 (configure c st0)) by (constructor; exact En).
  destruct (reach_ordJ prob ewt_set Hl c yy0 yp0 _ Hc Hr) as (O & Hj).
  assert (Hr' : reach prob ewt_set c yy0 yp0 st').
  { eapply (reach_call prob ewt_set c yy0 yp0 fuel rfuel _ (CallSolve tout tret itask)); [exact Hr|]. unfold api_call. rewrite E. reflexivity. }
  destruct (reach_ordJ prob ewt_set Hl c yy0 yp0 st' Hc Hr') as (_ & Hj').
  destruct (fresh_root_fields _ _ _ En) as (F1 & F2 & F3 & F4).
  refine (first_step_blind _ yy0 yp0 _ _ _ _ _ _ _ O Hj Hj' F1 _ _ F3 F4 Hg E); rewrite F2; reflexivity.
Qed.
End Life.
End OverR.
