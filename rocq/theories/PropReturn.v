(** * PropReturn: over the reals every call of [solve] returns, rootfinding
      included (C47, C56; src/impl_solve.rs, src/impl_r_check.rs)
    In the model the loops have fuel.  Here: the result of a call does not depend
    on the fuel once there is enough of it, and there always is such an amount. *)
Require Import List Arith Bool Lia Reals Lra.
Import ListNotations.
Require Import Verif.Base Verif.Scalar Verif.ScalarR Verif.Dense Verif.Norms Verif.Newton Verif.NewtonSpec Verif.IdaState
  Verif.IdaNls Verif.IdaCore Verif.IdaRoots Verif.IdaSolve Verif.IdaIo Verif.BaseFacts Verif.NewtonFacts
  Verif.IdaFacts Verif.IdaLoops Verif.IdaStep Verif.IdaSpec Verif.IdaShell Verif.IdaReach Verif.IdaInv
  Verif.IdaCount Verif.IdaLife Verif.IdaTrace Verif.IdaAccept Verif.IdaStepR Verif.IdaSafe Verif.IdaInterp Verif.IdaCall Verif.IdaCallR
  Verif.PropSafe Verif.PropSolve Verif.RootFacts Verif.PropRoots.
Open Scope nat_scope.

(** From some fuel on the result is there and no longer changes. *)
Definition settles {A} (m : nat -> outcome A) : Prop :=
  exists N x, forall f, N <= f -> m f = Ret x.

Lemma settles_const {A} (m : outcome A) : (exists a, m = Ret a) -> settles (fun _ => m).
Proof. intros (a & E). exists 0, a. auto. Qed.

Lemma settles_safe {A} (m : outcome A) : safe False m -> settles (fun _ => m).
Proof. intros S. apply settles_const. exact (safe_false m S). Qed.

Lemma settles_bind {A B} (m : nat -> outcome A) (k : nat -> A -> outcome B) : settles m ->
  (forall a, (exists f, m f = Ret a) -> settles (fun f => k f a)) -> settles (fun f => bind (m f) (k f)).
Proof.
  intros (N & a & E) Hk. destruct (Hk a) as (N2 & y & E2); [exists N; apply E; lia|].
  exists (Nat.max N N2), y. intros f Lf. rewrite E by lia. cbn [bind]. apply E2. lia.
Qed.

Section Fuel.
Context {T LSt NSt : Type} `{Scalar T} `{LSolver T LSt} `{NLSolver T NSt}.
Variable prob : problem T.
Notation state := (ida T LSt NSt).

Lemma step_loop_more t0 : forall f (st : state) ncf nef f', f <= f' -> step_loop prob f st t0 ncf nef <> Diverge ->
  step_loop prob f' st t0 ncf nef = step_loop prob f st t0 ncf nef.
Proof.
  induction f as [|f IH]; intros st ncf nef f' L N; [exact (False_ind _ (N eq_refl))|].
  destruct f' as [|f']; [lia|]. cbn [step_loop] in *.
  destruct (attempt_step prob st t0 ncf nef) as [(((s & a) & b) & [[x|]|e])| |]; cbn [bind] in *; try reflexivity.
  apply IH; [lia|exact N].
Qed.

Lemma step_settles f (st : state) x : step prob f st = Ret x -> forall f', f <= f' -> step prob f' st = Ret x.
Proof.
  unfold step. cbv zeta. intros E f' L. apply bind_ret_inv in E. destruct E as (s & Es & E). cbv beta in E. rewrite Es. cbn [bind].
  rewrite <- E. rewrite (step_loop_more _ f s 0 0 f' L); [reflexivity|]. intros D. rewrite D in E. discriminate.
Qed.

Lemma root_loop_more : forall f (st : state) al sp side im f', f <= f' -> root_loop prob f st al sp side im <> Diverge ->
  root_loop prob f' st al sp side im = root_loop prob f st al sp side im.
Proof.
  induction f as [|f IH]; intros st al sp side im f' L N; [exact (False_ind _ (N eq_refl))|].
  destruct f' as [|f']; [lia|]. cbn [root_loop] in *.
  destruct (_ <=? _)%sc; [reflexivity|]. cbv zeta in *.
  destruct (aget (ghi st) im) as [ghm| |]; cbn [bind] in *; try reflexivity.
  destruct (aget (glo st) im) as [glm| |]; cbn [bind] in *; try reflexivity.
  destruct (get_solution prob st _) as [(s & r)| |]; cbn [bind] in *; try reflexivity.
  destruct (call_root prob s _ _ _) as (s2 & g). set (s3 := set_nge _ _) in *. clearbody s3.
  destruct (scan2 prob _ _ _ _ _) as (((z & sg) & m) & i2). destruct sg.
  - destruct (_ <=? _)%sc; [reflexivity|]. apply IH; [lia|exact N].
  - destruct z; [reflexivity|]. destruct (_ <=? _)%sc; [reflexivity|]. apply IH; [lia|exact N].
Qed.

Lemma root_find_more f (st : state) f' : f <= f' -> root_find prob f st <> Diverge -> root_find prob f' st = root_find prob f st.
Proof.
  unfold root_find. intros L N. destruct (scan1 prob _ _ _ _) as (((z & s) & m) & i). destruct s; cbn [negb] in *; [|reflexivity].
  rewrite (root_loop_more f st sone None 0 i f' L); [reflexivity|]. intros D. rewrite D in N. exact (N eq_refl).
Qed.

Lemma r_check3_more f (st : state) x f' : f <= f' -> r_check3 prob f st = Ret x -> r_check3 prob f' st = Ret x.
Proof.
  unfold r_check3. cbv zeta. intros L E. apply bind_ret_inv in E. destruct E as ((s & r) & Es & E). rewrite Es. cbn [bind].
  destruct (call_root prob s _ _ _) as (s2 & g). set (s3 := set_ttol _ _) in *. clearbody s3.
  rewrite <- E. rewrite (root_find_more f s3 f' L); [reflexivity|]. intros D. rewrite D in E. discriminate.
Qed.

Lemma post_more f (st : state) tout tret itask x f' : f <= f' -> post_step prob f st tout tret itask = Ret x ->
  post_step prob f' st tout tret itask = Ret x.
Proof.
  unfold post_step. intros L E. destruct (0 <? nrtfn st); [|exact E].
  apply bind_ret_inv in E. destruct E as (r & Er & E). apply bind_ret_inv in Er. destruct Er as (q & Eq & Er).
  rewrite (r_check3_more f st q f' L Eq). cbn [bind]. rewrite Er. exact E.
Qed.
End Fuel.

Lemma INR_above (x : R) : exists N, (x <= INR N)%R.
Proof.
  exists (Z.to_nat (up x)). destruct (archimed x) as (A & _). rewrite INR_IZR_INZ.
  destruct (Z.le_gt_cases 0 (up x)) as [L|L]; [rewrite Z2Nat.id by exact L; lra|].
  rewrite ZifyInst.of_nat_to_nat_eq, Z.max_l by lia. apply IZR_lt in L. lra.
Qed.

Section Reals.
Context {LSt NSt : Type} `{LSolver R LSt} `{NLSolver R NSt}.
Variable prob : problem R.
Variable ewt_set : list R -> list R.
Hypothesis Hl : @nls_lawful R NSt _.
Notation n := (model_size prob).
Notation nr := (num_roots prob).
Notation state := (ida R LSt NSt).
Notation Qt := (fun (_ : LSt) (_ : mat R) => True).
Notation wft := (wf prob Qt).

Lemma r_check3_settles (st : state) : searchable prob st -> settles (fun f => r_check3 prob f st).
Proof.
  intros S. destruct (INR_above (Rabs (right_end st - tlo st) / tolerance st * 2 + 1)) as (N & HN).
  destruct (C56_search_terminates prob N st S) as (s & r & E & _); [exact HN|].
  exists N, (s, r). intros f Lf. eapply r_check3_more; eassumption.
Qed.


Section Life.
Variable c : @config R.
Hypothesis Hc : config_ok c.
Variable st : state.
Hypothesis O : ordok st.
Hypothesis Js : J prob c None st.
Hypothesis W : wft st.

Let HQ : preserves (ida_nlproblem prob) (fun x : nlprob R LSt => Qt (lp_ls (lp x)) (lp_matj (lp x))) :=
  any_preserved prob (fun _ _ => True) (fun _ _ => I).

Lemma inside_wf (a : state) : pieces prob ewt_set st a -> wft a.
Proof. intros P. revert W. apply (pieces_inv prob ewt_set wft); [|exact P]. intros x y Hx Hp. exact (wf_piece prob ewt_set Hl Qt HQ x y Hp Hx). Qed.

Lemma inside_search (a : state) : pieces prob ewt_set st a -> nst a <> 0 -> searchable prob a.
Proof. intros P Hz. eapply pieces_search; try eassumption. exact (wf_glo _ _ _ (inside_wf a P)). Qed.

Lemma inside_shell (a b : state) : pieces prob ewt_set st a -> shell prob a b -> pieces prob ewt_set st b.
Proof. intros P S. exact (pieces_trans _ _ _ _ _ P (piece1 _ _ _ _ (p_shell _ _ _ _ S))). Qed.

Lemma post_settles (a : state) tout tret itask : pieces prob ewt_set st a -> nst a <> 0 ->
  settles (fun f => post_step prob f a tout tret itask).
Proof.
  intros P Hz. pose proof (inside_wf a P) as Wa. unfold post_step.
  destruct (0 <? nrtfn a).
  - refine (settles_bind (fun f => let* (x, ier) := r_check3 prob f a in _) (fun _ r => _) _ _).
    + refine (settles_bind (fun f => r_check3 prob f a) (fun _ x => _) (r_check3_settles a (inside_search a P Hz)) _).
      intros (b & q) _. apply settles_const. destruct q; eexists; reflexivity.
    + intros r (f & E). destruct r as [x|b]; [apply settles_const; eexists; reflexivity|].
      apply settles_safe. apply (stop_test2_safe prob False Qt).
      apply bind_ret_inv in E. destruct E as ((s2 & r2) & E & E').
      apply r_check3_shell in E. destruct r2; [discriminate|injection E' as <-; exact (wf_shell _ _ _ _ E Wa)].
  - apply settles_safe. cbn [bind]. apply (stop_test2_safe prob False Qt). exact Wa.
Qed.

Lemma later_settles (a : state) tout tret itask : pieces prob ewt_set st a -> nst a <> 0 ->
  settles (fun f => later_call prob f a tout tret itask).
Proof.
  intros P Hz. pose proof (inside_wf a P) as Wa. unfold later_call. cbv zeta.
  assert (Last : forall r : state * R * result solve_status (err R) + state, (forall b, r = inr b -> wft b) -> settles (fun _ : nat =>
    match r with
    | inl a => Ret (inl a)
    | inr st => let* (st, tret, istate) := stop_test1 prob st tout tret itask in
        match istate with Ok ContinueSteps => Ret (inr (st, tret)) | _ => Ret (inl (st, tret, istate)) end
    end)).
  { intros r Hr. destruct r as [x|b]; [apply settles_const; eexists; reflexivity|]. apply settles_safe.
    apply safe_bind; [apply (stop_test1_safe prob False Qt); apply Hr; reflexivity|].
    intros ((s & t) & [[]|]) _; exact I. }
  destruct (0 <? nrtfn a).
  - refine (settles_bind (fun f => let* (x, ier) := r_check2 prob a in _) (fun _ r => _) _ _).
    + refine (settles_bind (fun _ => r_check2 prob a) (fun f x => _) (settles_safe _ (r_check2_safe prob False Qt a Wa)) _).
      intros (b & q) (_ & E). cbv beta iota. apply r_check2_shell in E.
      destruct q as [[|]|e]; try (apply settles_const; eexists; reflexivity).
      destruct (_ <? _)%sc; [|apply settles_const; eexists; reflexivity].
      pose proof (inside_shell _ _ P E) as Pb.
      refine (settles_bind (fun f => r_check3 prob f b) (fun _ x => _) _ _).
      * apply r_check3_settles, (inside_search b Pb). rewrite (shell_nst _ _ _ E). exact Hz.
      * intros (d & q2) (f & E3). apply r_check3_shell in E3. pose proof (inside_wf _ (inside_shell _ _ Pb E3)) as Wd.
        cbv beta iota. apply settles_safe. destruct q2; [exact I|]. destruct itask; [exact I|]. destruct (irfnd a); [|exact I].
        apply safe_bind; [|intros (? & ?) _; exact I]. apply (wf_gs prob False Qt).
        refine (wf_shell prob Qt _ _ _ Wd). eapply shell_trans; [apply irfnd_shell|apply tretlast_shell].
    + intros r (f & E). apply (Last r). intros b ->.
      apply bind_ret_inv in E. destruct E as ((s1 & r1) & E1 & E). cbv beta iota in E.
      apply r_check2_shell in E1. pose proof (inside_wf _ (inside_shell _ _ P E1)) as W1. destruct r1 as [[|]|]; try discriminate.
      destruct (_ <? _)%sc; [|injection E as <-; exact W1].
      apply bind_ret_inv in E. destruct E as ((s2 & r2) & E2 & E). cbv beta iota in E.
      apply r_check3_shell in E2. pose proof (wf_shell _ _ _ _ E2 W1) as W2. destruct r2; [discriminate|].
      assert (W3 : wft (set_irfnd false s2)) by (eapply wf_shell; [apply irfnd_shell|exact W2]).
      destruct itask; [injection E as <-; exact W3|]. destruct (irfnd a); [|injection E as <-; exact W3].
      apply bind_ret_inv in E. destruct E as ((? & ?) & _ & E). discriminate.
  - cbn [bind]. apply (Last (inr a)). intros b E. injection E as <-. exact Wa.
Qed.

(** The steps of the call settle: [Inv] holds where the step loop begins and is
    passed on. *)
Variable Inv : state -> Prop.
Hypothesis Inv_in : forall rfuel tout tret itask s, enters prob ewt_set rfuel st tout tret itask s -> Inv s.
Hypothesis Inv_step : forall tout itask s tret nl s1, head prob ewt_set tout itask st s -> Inv s ->
  pre_step prob ewt_set s tret nl = Ret (inr s1) -> settles (fun f => step prob f s1).
Hypothesis Inv_next : forall rfuel tout itask s tret nl s1 s2 u s' t, head prob ewt_set tout itask st s -> Inv s ->
  pre_step prob ewt_set s tret nl = Ret (inr s1) -> step prob rfuel s1 = Ret (s2, Ok u) ->
  post_step prob rfuel s2 tout tret itask = Ret (s', t, Ok ContinueSteps) -> Inv s'.

Lemma head_next rfuel (s s1 s2 s' : state) tout itask tret nl u t : head prob ewt_set tout itask st s ->
  pre_step prob ewt_set s tret nl = Ret (inr s1) -> step prob rfuel s1 = Ret (s2, Ok u) ->
  post_step prob rfuel s2 tout tret itask = Ret (s', t, Ok ContinueSteps) -> head prob ewt_set tout itask st s'.
Proof.
  intros Hd Ep Es Ef.
  pose proof (step_ok_nst _ _ _ _ _ Es) as Hz.
  pose proof (head_step _ _ _ _ _ _ _ _ _ _ _ _ Hd Ep Es) as P.
  apply post_step_shell in Ef. destruct Ef as (s3 & S3 & [(_ & L3 & _ & A1 & A2)|(A & _)]); [|congruence].
  assert (Hz3 : nst s3 <> 0) by (rewrite (shell_nst _ _ _ S3); exact Hz).
  assert (Hz4 : nst s' <> 0) by (rewrite (lims_nst _ _ L3); exact Hz3).
  constructor.
  - eapply pieces_snoc; [exact (pieces_shell _ _ _ _ _ P S3)|]. apply p_lims; assumption.
  - exact (lims_limited _ _ L3).
  - left. exact Hz4.
  - left. split; [exact Hz4|]. exists s3.
    split; [exact (pieces_shell _ _ _ _ _ P S3)|]. auto.
Qed.

Hypothesis Hmx : 0 < g_mxstep c.
Hypothesis Lk : tlink prob c None st.

Lemma inside_mx (a : state) : pieces prob ewt_set st a -> mxstep a = g_mxstep c.
Proof. intros P. pose proof (tl_cfg _ _ _ _ (pieces_tlink prob ewt_set Hl c st a Hc O Lk P)) as Q. unfold cfg_is in Q. tauto. Qed.

Lemma loop_settles tout itask : forall k (s : state) tret nl, head prob ewt_set tout itask st s -> Inv s ->
  g_mxstep c + 1 <= k + nl -> k <> 0 -> settles (fun f => solve_loop prob ewt_set k f s tout tret itask nl).
Proof.
  induction k as [|k IH]; intros s tret nl Hd Hi Hk Hz; [congruence|]. cbn [solve_loop].
  pose proof (inside_wf s (hd_pieces _ _ _ _ _ _ Hd)) as Ws.
  refine (settles_bind (fun _ => pre_step prob ewt_set s tret nl) (fun f r => _) (settles_safe _ (pre_step_safe prob ewt_set False Qt s tret nl Ws)) _).
  intros [a|s1] (_ & Ep); [apply settles_const; eexists; reflexivity|].
  pose proof (pre_step_shell _ _ _ _ _ _ Ep) as (S1 & M1 & _).
  pose proof (wf_shell _ _ _ _ S1 Ws) as W1.
  refine (settles_bind (fun f => step prob f s1) (fun f x => _) (Inv_step tout itask s tret nl s1 Hd Hi Ep) _).
  intros (s2 & r2) (fs & Es). cbv beta iota.
  pose proof (head_step _ _ _ _ _ _ _ _ _ _ _ _ Hd Ep Es) as P2. pose proof (inside_wf s2 P2) as W2.
  destruct r2 as [u|e].
  - pose proof (step_ok_nst _ _ _ _ _ Es) as Hz2.
    refine (settles_bind (fun f => post_step prob f s2 tout tret itask) (fun f x => _) (post_settles s2 tout tret itask P2 Hz2) _).
    intros ((s3 & t3) & r3) (fp & Ef). cbv beta iota.
    destruct r3 as [[]|e3]; try (apply settles_const; eexists; reflexivity).
    assert (Ha : post_step prob (Nat.max fs fp) s2 tout tret itask = Ret (s3, t3, Ok ContinueSteps)) by (eapply post_more; [|exact Ef]; lia).
    apply IH.
    + eapply (head_next (Nat.max fs fp)); [exact Hd|exact Ep| |exact Ha]. eapply step_settles; [exact Es|lia].
    + eapply (Inv_next (Nat.max fs fp)); [exact Hd|exact Hi|exact Ep| |exact Ha]. eapply step_settles; [exact Es|lia].
    + lia.
    + intros ->. destruct M1 as [M1|M1]; rewrite (inside_mx s (hd_pieces _ _ _ _ _ _ Hd)) in M1; lia.
  - apply settles_safe. unfold step_failed. apply safe_bind; [apply (wf_gs prob False Qt); exact W2|]. intros (? & []) _; exact I.
Qed.

Lemma start_settles tout tret itask : settles (fun f => solve_start prob ewt_set f (task_set st tout itask) tout tret itask).
Proof.
  pose proof (task_set_shell prob st tout itask) as S0.
  assert (P0 : pieces prob ewt_set st (task_set st tout itask)) by exact (piece1 _ _ _ _ (p_shell _ _ _ _ S0)).
  set (st0 := task_set st tout itask) in *. clearbody st0. pose proof (inside_wf _ P0) as W0. unfold solve_start.
  refine (settles_bind (fun _ => if nst st0 =? 0 then _ else _) (fun f r => _) _ _).
  - apply settles_safe. destruct (nst st0 =? 0) eqn:En; [|exact I]. apply Nat.eqb_eq in En.
    apply safe_bind; [apply (first_call_safe prob ewt_set False Qt); assumption|]. intros [(? & ?)|?] _; exact I.
  - intros [a|s1] (_ & E1); [apply settles_const; eexists; reflexivity|].
    assert (P1 : pieces prob ewt_set st s1).
    { destruct (nst st0 =? 0) eqn:En; [|injection E1 as <-; exact P0]. apply Nat.eqb_eq in En.
      apply bind_ret_inv in E1. destruct E1 as ([(s & m)|s] & E1 & E2); [discriminate|]. injection E2 as <-.
      exact (pieces_trans _ _ _ _ _ P0 (piece1 _ _ _ _ (p_first_ok _ _ _ _ _ En E1))). }
    pose proof (inside_wf _ P1) as W1.
    refine (settles_bind (fun _ => ls_perf _ _ _ _ _) (fun f r => _) (settles_safe _ (ls_perf_safe prob False Qt s1 false W1)) _).
    intros l (_ & El). cbv zeta.
    apply (ls_perf_false_shell prob) in El. pose proof (inside_shell _ _ P1 El) as P2.
    set (s2 := on_lp _ s1) in *. clearbody s2.
    destruct (0 <? nst s2) eqn:Ez; [|apply settles_const; eexists; reflexivity].
    apply Nat.ltb_lt in Ez. apply later_settles; [exact P2|lia].
Qed.

Lemma solve_settles fuel tout tret itask : g_mxstep c < fuel ->
  settles (fun f => solve prob ewt_set fuel f st tout tret itask).
Proof.
  intros Hf. destruct (settles_bind (fun f => solve_start prob ewt_set f (task_set st tout itask) tout tret itask)
    (fun f r => match r with inl a => Ret a | inr (s, t) => solve_loop prob ewt_set fuel f s tout t itask 0 end)
    (start_settles tout tret itask)) as (N & x & E).
  - intros [a|(s & t)] (f & Es); [apply settles_const; eexists; reflexivity|].
    assert (t = tret).
    { apply solve_start_pieces in Es. tauto. }
    subst t. apply loop_settles; [| |lia|lia]; [eapply enters_head; exact Es|exact (Inv_in f tout tret itask s Es)].
  - exists N, x. intros f L. rewrite solve_unfold. exact (E f L).
Qed.
End Life.

(** With solvers that always return. *)
Lemma stepping_settles : 
  (forall (s : NSt) y, exists s', nls_setup s y = Ret s') ->
  (forall (s : NSt) (x : nlprob R LSt) y0 y w tol call, exists r,
     nls_solve _ (ida_nlproblem prob) n s x y0 y w tol call = Ret r) ->
  forall a : state, wft a -> settles (fun f => step prob f a).
Proof.
  intros Hset Hsol a Wa. destruct (safe_false (step prob (Nat.max 3 (maxnef a)) a)) as (x & E).
  { apply (step_safe prob Hl False Qt (any_preserved prob (fun _ _ => True) (fun _ _ => I))); [| |exact Wa|lia].
    - intros s y. destruct (Hset s y) as (s' & ->). exact I.
    - intros s x y0 y w tol call _. destruct (Hsol s x y0 y w tol call) as (r & ->). exact I. }
  exists (Nat.max 3 (maxnef a)), x. intros f L. exact (step_settles _ _ _ _ E f L).
Qed.

(** Every call returns: there is an amount of fuel for the inner loops (attempts
    of a step, root searches) from which on the call has one and the same result.
    [fuel] is the number of internal steps, bounded by the limit the user set. *)
Theorem C47_solve_returns_reals : 
  (forall (s : NSt) y, exists s', nls_setup s y = Ret s') ->
  (forall (s : NSt) (x : nlprob R LSt) y0 y w tol call, exists r,
     nls_solve _ (ida_nlproblem prob) n s x y0 y w tol call = Ret r) ->
  forall c yy0 yp0 (st : state) fuel tout tret itask,
  config_ok c -> reach prob ewt_set c yy0 yp0 st -> 0 < g_mxstep c < fuel ->
  exists N st' t r, forall rfuel, N <= rfuel -> solve prob ewt_set fuel rfuel st tout tret itask = Ret (st', t, r).
Proof.
  intros Hs Hn c yy0 yp0 st fuel tout tret itask Hc Hr Hm.
  pose proof (reach_ord prob ewt_set Hl c yy0 yp0 st Hc Hr) as O.
  pose proof (reach_J prob ewt_set Hl c Hc yy0 yp0 st Hr) as Js.
  pose proof (reach_wf prob ewt_set Hl Qt (any_preserved prob (fun _ _ => True) (fun _ _ => I)) c yy0 yp0 st Hc I Hr) as W.
  pose proof (reach_tlink prob ewt_set Hl c Hc yy0 yp0 st Hr) as Lk.
  destruct (solve_settles c Hc st O Js W (fun _ => True)) with (fuel := fuel) (tout := tout) (tret := tret) (itask := itask)
    as (N & ((st' & t) & r) & E); [auto| |auto|apply Hm|exact Lk|apply Hm|].
  - intros to it s tr nl s1 Hd _ Ep. apply (stepping_settles Hs Hn).
    pose proof (pre_step_shell _ _ _ _ _ _ Ep) as (S1 & _). refine (wf_shell _ _ _ _ S1 _).
    exact (inside_wf st W s (hd_pieces _ _ _ _ _ _ Hd)).
  - exists N, st', t, r. exact E.
Qed.
End Reals.

Print Assumptions C47_solve_returns_reals.
