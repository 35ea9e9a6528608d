(** * ReturnAny: when a call of [solve] returns, for every scalar
    The number of passes of the inner loops (attempts of a step, root searches) is
    irrelevant from some number on if that holds of the steps and of the root
    searches of the call. *)
Require Import List Arith Bool Lia.
Import ListNotations.
Require Import Verif.Base Verif.Scalar Verif.Dense Verif.Norms Verif.Newton Verif.NewtonSpec Verif.IdaState
  Verif.IdaNls Verif.IdaCore Verif.IdaRoots Verif.IdaSolve Verif.BaseFacts Verif.NewtonFacts
  Verif.IdaFacts Verif.IdaLoops Verif.IdaStep Verif.IdaSpec Verif.IdaShell Verif.IdaReach Verif.IdaInv
  Verif.IdaCount Verif.IdaLife Verif.IdaTrace Verif.IdaSafe Verif.IdaCall
  Verif.PropSafe Verif.PropSolve Verif.RootWalk Verif.PropReturn.
Open Scope nat_scope.

Section Keep.
Context {T LSt NSt : Type} `{Scalar T} `{LSolver T LSt} `{NLSolver T NSt}.
Variable prob : problem T.
Variable ewt_set : list T -> list T.
Notation nr := (num_roots prob).
Notation state := (ida T LSt NSt).

(** What a search that finds nothing leaves alone. *)
Definition asked (st : state) := (toutc st, taskc st).

Lemma gs_asked (a b : state) t r : get_solution prob a t = Ret (b, r) -> asked b = asked a /\ tlo b = tlo a /\ tretlast b = tretlast a.
Proof.
  intros E. pose proof (get_solution_frame _ _ _ _ _ E) as (_ & Fo & Fr & _). apply rootst_fields in Fr.
  unfold outer in Fo. injection Fo as _ _ _ F4 _ _. unfold asked.
  destruct Fr as (_ & F1 & _ & _ & _ & _ & _ & F2 & _ & F3 & _). split; [congruence|]. split; [exact F1|exact F4].
Qed.

Lemma check3_asked f (a b : state) : r_check3 prob f a = Ret (b, RootContinue) -> asked b = asked a /\ tretlast b = tretlast a.
Proof.
  unfold r_check3. cbv zeta. set (hi := match taskc a with Normal => _ | OneStep => _ end). clearbody hi. intros E.
  apply bind_ret_inv in E. destruct E as ((s1 & r1) & E1 & E). cbv beta iota in E. apply gs_asked in E1.
  unfold call_root in E. cbv beta iota zeta in E.
  set (s2 := set_ttol _ _) in E. assert (F2 : asked s2 = asked a /\ tretlast s2 = tretlast a).
  { destruct E1 as (X1 & _ & X3). exact (conj X1 X3). }
  clearbody s2. clear E1 s1 r1. apply bind_ret_inv in E. destruct E as ((s3 & r3) & E3 & E). cbv beta iota in E.
  assert (F3 : r3 = RootContinue -> asked s3 = asked s2 /\ tretlast s3 = tretlast s2).
  { unfold root_find in E3. destruct (scan1 _ _ _ _ _) as (((z & sg) & mf) & im). destruct sg; cbn [negb] in E3.
    - apply bind_ret_inv in E3. destruct E3 as (s4 & _ & E3). cbv beta zeta in E3. apply ret_inj in E3.
      intros ->. apply pair_equal_spec in E3. destruct E3 as (_ & E3). discriminate.
    - destruct z; cbn [negb] in E3; apply ret_inj in E3; apply pair_equal_spec in E3; destruct E3 as (E3 & E4).
      + intros ->. discriminate.
      + intros _. rewrite <- E3. split; reflexivity. }
  destruct r3.
  - apply bind_ret_inv in E. destruct E as ((s4 & r4) & _ & E). cbv beta iota in E. apply ret_inj in E.
    apply pair_equal_spec in E. destruct E as (_ & E). discriminate.
  - apply ret_inj in E. apply pair_equal_spec in E. destruct E as (E & _). destruct (F3 eq_refl) as (X1 & X2).
    destruct F2 as (Y1 & Y2). rewrite <- E. split; [exact (eq_trans X1 Y1)|exact (eq_trans X2 Y2)].
Qed.

(** The re-check does not move the left end. *)
Lemma check2_asked (a b : state) r : r_check2 prob a = Ret (b, r) -> asked b = asked a /\ tlo b = tlo a /\ tretlast b = tretlast a.
Proof.
  unfold r_check2. destruct (irfnd a); cbn [negb]; intros E.
  2:{ apply ret_inj in E. apply pair_equal_spec in E. destruct E as (<- & _). auto. }
  apply bind_ret_inv in E. destruct E as ((s1 & r1) & E1 & E). cbv beta iota in E. apply gs_asked in E1.
  unfold call_root in E. cbv beta iota zeta in E.
  match type of E with (if ?b then _ else _) = _ => destruct b end.
  2:{ apply ret_inj in E. apply pair_equal_spec in E. destruct E as (<- & _). exact E1. }
  apply bind_ret_inv in E. destruct E as (s3 & E3 & E). cbv beta in E.
  match type of E3 with (if _ then _ else (let* (st, _) := get_solution _ ?s _ in _)) = _ => set (s2 := s) in E3 end.
  assert (F2 : asked s2 = asked a /\ tlo s2 = tlo a /\ tretlast s2 = tretlast a) by exact E1.
  assert (F3 : asked s3 = asked s2 /\ tlo s3 = tlo s2 /\ tretlast s3 = tretlast s2).
  { clear E E1 F2. clearbody s2. match type of E3 with (if ?b then _ else _) = _ => destruct b end.
    - apply bind_ret_inv in E3. destruct E3 as (p & _ & E3). apply ret_inj in E3. subst s3. split; [reflexivity|split; reflexivity].
    - apply bind_ret_inv in E3. destruct E3 as ((s4 & r4) & E4 & E3). cbv beta iota in E3. apply ret_inj in E3. subst s3.
      exact (gs_asked _ _ _ _ E4). }
  clear E3 E1. clearbody s2.
  assert (F : asked s3 = asked a /\ tlo s3 = tlo a /\ tretlast s3 = tretlast a).
  { destruct F2 as (X1 & X2 & X3), F3 as (Y1 & Y2 & Y3). repeat split; congruence. }
  destruct (close_scan _ _ _ _ _ _) as (((ir & gl) & cl) & zr).
  destruct cl; [|destruct zr]; apply ret_inj in E; apply pair_equal_spec in E; destruct E as (<- & _); exact F.
Qed.

Lemma check1_asked (a b : state) : r_check1 prob a = Ret b -> asked b = asked a /\ tlo b = tn (nlp a) /\ tn (nlp b) = tn (nlp a).
Proof.
  unfold r_check1. intros E. cbv zeta in E.
  set (s1 := set_ttol _ _) in E.
  assert (F1 : asked s1 = asked a /\ tlo s1 = tn (nlp a) /\ tn (nlp s1) = tn (nlp a)) by (repeat split).
  clearbody s1.
  apply bind_ret_inv in E. destruct E as (p0 & _ & E). cbv beta in E.
  apply bind_ret_inv in E. destruct E as (p1 & _ & E). cbv beta in E.
  destruct (call_root prob s1 (tlo s1) p0 p1) as (s2 & g2) eqn:Ec.
  assert (F2 : asked s2 = asked a /\ tlo s2 = tn (nlp a) /\ tn (nlp s2) = tn (nlp a)) by (unfold call_root in Ec; injection Ec as <- _; exact F1).
  clear Ec. set (s3 := set_nge 1 (set_glo g2 s2)) in E.
  assert (F3 : asked s3 = asked a /\ tlo s3 = tn (nlp a) /\ tn (nlp s3) = tn (nlp a)) by exact F2. clearbody s3. clear F2.
  set (s4 := set_gactive _ s3) in E.
  assert (F4 : asked s4 = asked a /\ tlo s4 = tn (nlp a) /\ tn (nlp s4) = tn (nlp a)) by exact F3. clearbody s4. clear F3.
  destruct (existsb _ _) in E; [|apply ret_inj in E; subst b; exact F4].
  set (s5 := on_nlp _ s4) in E.
  assert (F5 : asked s5 = asked a /\ tlo s5 = tn (nlp a) /\ tn (nlp s5) = tn (nlp a)) by exact F4. clearbody s5. clear F4.
  destruct (call_root prob s5 _ _ p1) as (s6 & g3) eqn:Ed.
  assert (F6 : asked s6 = asked a /\ tlo s6 = tn (nlp a) /\ tn (nlp s6) = tn (nlp a)) by (unfold call_root in Ed; injection Ed as <- _; exact F5).
  clear Ed F5. set (s7 := set_nge _ (set_ghi g3 s6)) in E.
  assert (F7 : asked s7 = asked a /\ tlo s7 = tn (nlp a) /\ tn (nlp s7) = tn (nlp a)) by exact F6. clearbody s7. clear F6.
  apply ret_inj in E. subst b. exact F7.
Qed.

(** The first call checks the start. *)
Lemma first_asked (a s : state) tout : first_call prob ewt_set a tout = Ret (inr s) ->
  asked s = asked a /\ tn (nlp s) = tn (nlp a) /\ nrtfn s = nrtfn a /\ (0 < nrtfn a -> tlo s = tn (nlp a)).
Proof.
  intros E. unfold first_call in E. apply bind_ret_inv in E as (s0 & E0 & E). cbv beta in E.
  assert (F0 : asked s0 = asked a /\ tn (nlp s0) = tn (nlp a) /\ nrtfn s0 = nrtfn a).
  { destruct (setup_done a); [apply ret_inj in E0; subst s0; auto|].
    apply bind_ret_inv in E0 as (s1 & E1 & E0). cbv beta in E0. apply ret_inj in E0. subst s0.
    unfold initial_setup in E1. apply bind_ret_inv in E1 as (q & _ & E1). apply ret_inj in E1. subst s1. split; [reflexivity|split; reflexivity]. }
  destruct F0 as (F1 & F2 & F3).
  apply bind_ret_inv in E as (y & E1 & E). cbv beta in E. pose proof (first_step_frame _ _ _ E1) as F.
  destruct y as [(sx & m)|sx]; [discriminate|]. destruct F as (hx & ->).
  apply bind_ret_inv in E as (s2 & E2 & E). cbv beta in E.
  set (b := set_kused 0 (set_kk 0 (set_h0u (hh (set_hh hx s0)) (set_hh hx s0)))) in E2.
  assert (B : asked b = asked a /\ tn (nlp b) = tn (nlp a) /\ nrtfn b = nrtfn a) by (split; [exact F1|split; [exact F2|exact F3]]).
  clearbody b. destruct B as (B1 & B2 & B3).
  assert (C : asked s2 = asked a /\ tn (nlp s2) = tn (nlp a) /\ nrtfn s2 = nrtfn a /\ (0 < nrtfn a -> tlo s2 = tn (nlp a))).
  { rewrite B3 in E2. destruct (Nat.ltb_spec 0 (nrtfn a)) as [Hp|Hp].
    - destruct (r_check1_frame _ _ _ E2) as ((C1 & _) & _). apply core_fields in C1. destruct C1 as (C1 & _). apply cfg_fields in C1. destruct (check1_asked _ _ E2) as (X1 & X2 & X3).
      assert (nrtfn s2 = nrtfn b) by tauto. repeat split; congruence.
    - apply ret_inj in E2. subst s2. split; [exact B1|]. split; [exact B2|]. split; [exact B3|lia]. }
  clear E2.
  apply bind_ret_inv in E as (q1 & _ & E). cbv beta in E. apply bind_ret_inv in E as (ph & _ & E). cbv beta in E.
  apply ret_inj in E.
  match type of E with inr ?w = _ => assert (Hs : s = w) by congruence end. rewrite Hs. exact C.
Qed.
End Keep.

(** ** A call settles when its steps and searches do *)
Section Settle.
Context {T LSt NSt : Type} `{Scalar T} `{LSolver T LSt} `{NLSolver T NSt}.
Variable prob : problem T.
Variable ewt_set : list T -> list T.
Hypothesis Hl : @nls_lawful T NSt _.
Notation n := (model_size prob).
Notation state := (ida T LSt NSt).
Notation Qt := (fun (_ : LSt) (_ : mat T) => True).
Notation wft := (wf prob Qt).

Lemma post_settle (a : state) tout tret itask : wft a ->
  (0 < nrtfn a -> settles (fun f => r_check3 prob f a)) -> settles (fun f => post_step prob f a tout tret itask).
Proof.
  intros Wa Hs. unfold post_step.
  destruct (Nat.ltb_spec 0 (nrtfn a)) as [Hp|Hp].
  - refine (settles_bind (fun f => let* (x, ier) := r_check3 prob f a in _) (fun _ r => _) _ _).
    + refine (settles_bind (fun f => r_check3 prob f a) (fun _ x => _) (Hs Hp) _).
      intros (b & q) _. apply settles_const. destruct q; eexists; reflexivity.
    + intros r (f & E). destruct r as [x|b]; [apply settles_const; eexists; reflexivity|].
      apply settles_safe. apply (stop_test2_safe prob False Qt).
      apply bind_ret_inv in E. destruct E as ((s2 & r2) & E & E').
      apply r_check3_shell in E. destruct r2; [discriminate|injection E' as <-; exact (wf_shell _ _ _ _ E Wa)].
  - apply settles_safe. cbn [bind]. apply (stop_test2_safe prob False Qt). exact Wa.
Qed.

Lemma later_settle (a : state) tout tret itask : wft a ->
  (forall b, 0 < nrtfn a -> r_check2 prob a = Ret (b, Ok RootContinue) ->
     (root_ttol b <? sabs (tn (nlp b) - tretlast b))%sc = true -> settles (fun f => r_check3 prob f b)) ->
  settles (fun f => later_call prob f a tout tret itask).
Proof.
  intros Wa Hs. unfold later_call. cbv zeta.
  assert (Last : forall r : state * T * result solve_status (err T) + state, (forall b, r = inr b -> wft b) -> settles (fun _ : nat =>
    match r with
    | inl a => Ret (inl a)
    | inr st => let* (st, tret, istate) := stop_test1 prob st tout tret itask in
        match istate with Ok ContinueSteps => Ret (inr (st, tret)) | _ => Ret (inl (st, tret, istate)) end
    end)).
  { intros r Hr. destruct r as [x|b]; [apply settles_const; eexists; reflexivity|]. apply settles_safe.
    apply safe_bind; [apply (stop_test1_safe prob False Qt); apply Hr; reflexivity|].
    intros ((s & t) & [[]|]) _; exact I. }
  destruct (Nat.ltb_spec 0 (nrtfn a)) as [Hp|Hp].
  - refine (settles_bind (fun f => let* (x, ier) := r_check2 prob a in _) (fun _ r => _) _ _).
    + refine (settles_bind (fun _ => r_check2 prob a) (fun f x => _) (settles_safe _ (r_check2_safe prob False Qt a Wa)) _).
      intros (b & q) (_ & E). cbv beta iota.
      destruct q as [[|]|e]; try (apply settles_const; eexists; reflexivity).
      specialize (Hs b Hp E). apply r_check2_shell in E.
      destruct (_ <? _)%sc; [|apply settles_const; eexists; reflexivity].
      pose proof (wf_shell _ _ _ _ E Wa) as Wb.
      refine (settles_bind (fun f => r_check3 prob f b) (fun _ x => _) (Hs eq_refl) _).
      intros (d & q2) (f & E3). apply r_check3_shell in E3. pose proof (wf_shell _ _ _ _ E3 Wb) as Wd.
      cbv beta iota. apply settles_safe. destruct q2; [exact I|]. destruct itask; [exact I|]. destruct (irfnd a); [|exact I].
      apply safe_bind; [|intros (? & ?) _; exact I]. apply (wf_gs prob False Qt).
      refine (wf_shell prob Qt _ _ _ Wd). eapply shell_trans; [apply irfnd_shell|apply tretlast_shell].
    + intros r (f & E). apply (Last r). intros b ->.
      apply bind_ret_inv in E. destruct E as ((s1 & r1) & E1 & E). cbv beta iota in E.
      apply r_check2_shell in E1. pose proof (wf_shell _ _ _ _ E1 Wa) as W1. destruct r1 as [[|]|]; try discriminate.
      destruct (_ <? _)%sc; [|injection E as <-; exact W1].
      apply bind_ret_inv in E. destruct E as ((s2 & r2) & E2 & E). cbv beta iota in E.
      apply r_check3_shell in E2. pose proof (wf_shell _ _ _ _ E2 W1) as W2. destruct r2; [discriminate|].
      assert (W3 : wft (set_irfnd false s2)) by (eapply wf_shell; [apply irfnd_shell|exact W2]).
      destruct itask; [injection E as <-; exact W3|]. destruct (irfnd a); [|injection E as <-; exact W3].
      apply bind_ret_inv in E. destruct E as ((? & ?) & _ & E). discriminate.
  - cbn [bind]. apply (Last (inr a)). intros b E. injection E as <-. exact Wa.
Qed.

Lemma next_head rfuel (st s s1 s2 s' : state) tout itask tret nl u t : head prob ewt_set tout itask st s ->
  pre_step prob ewt_set s tret nl = Ret (inr s1) -> step prob rfuel s1 = Ret (s2, Ok u) ->
  post_step prob rfuel s2 tout tret itask = Ret (s', t, Ok ContinueSteps) -> head prob ewt_set tout itask st s'.
Proof.
  intros Hd Ep Es Ef.
  pose proof (step_ok_nst _ _ _ _ _ Es) as Hz.
  pose proof (head_step _ _ _ _ _ _ _ _ _ _ _ _ Hd Ep Es) as P.
  apply post_step_shell in Ef. destruct Ef as (s3 & S3 & [(_ & L3 & _ & A1 & A2)|(A & _)]); [|congruence].
  assert (Hz3 : nst s3 <> 0) by (rewrite (shell_nst _ _ _ S3); exact Hz).
  assert (Hz4 : nst s' <> 0) by (rewrite (lims_nst _ _ L3); exact Hz3).
  constructor.
  - eapply pieces_snoc; [exact (pieces_shell _ _ _ _ _ P S3)|]. apply p_lims; assumption.
  - exact (lims_limited _ _ L3).
  - left. exact Hz4.
  - left. split; [exact Hz4|]. exists s3.
    split; [exact (pieces_shell _ _ _ _ _ P S3)|]. auto.
Qed.

Section Life.
Variable c : @config T.
Hypothesis Hc : config_ok c.
Variable st : state.
Hypothesis O : ordok st.
Hypothesis W : wft st.
Hypothesis Hmx : 0 < g_mxstep c.
Hypothesis Lk : tlink prob c None st.
Variables (tout : T) (itask : task).
Let HQ : preserves (ida_nlproblem prob) (fun x : nlprob T LSt => Qt (lp_ls (lp x)) (lp_matj (lp x))) :=
  any_preserved prob (fun _ _ => True) (fun _ _ => I).

Lemma in_wf (a : state) : pieces prob ewt_set st a -> wft a.
Proof. intros P. revert W. apply (pieces_inv prob ewt_set wft); [|exact P]. intros x y Hx Hp. exact (wf_piece prob ewt_set Hl Qt HQ x y Hp Hx). Qed.

Lemma in_mx (a : state) : pieces prob ewt_set st a -> mxstep a = g_mxstep c.
Proof. intros P. pose proof (tl_cfg _ _ _ _ (pieces_tlink prob ewt_set Hl c st a Hc O Lk P)) as Q. unfold cfg_is in Q. tauto. Qed.

(** [Inv] holds where the step loop begins and is passed on; where it holds, the
    step and the check after it settle. *)
Variable Inv : state -> Prop.
Hypothesis later_ok : forall a tret, pieces prob ewt_set st a -> still (task_set st tout itask) a -> shell prob (task_set st tout itask) a ->
  nst a <> 0 -> settles (fun f => later_call prob f a tout tret itask).
Hypothesis Inv_in : forall rfuel tret s, enters prob ewt_set rfuel st tout tret itask s -> Inv s.
Hypothesis Inv_step : forall s tret nl s1, head prob ewt_set tout itask st s -> Inv s ->
  pre_step prob ewt_set s tret nl = Ret (inr s1) -> settles (fun f => step prob f s1).
Hypothesis Inv_post : forall rfuel s tret nl s1 s2 u, head prob ewt_set tout itask st s -> Inv s ->
  pre_step prob ewt_set s tret nl = Ret (inr s1) -> step prob rfuel s1 = Ret (s2, Ok u) ->
  settles (fun f => post_step prob f s2 tout tret itask) /\
  forall s' t, post_step prob rfuel s2 tout tret itask = Ret (s', t, Ok ContinueSteps) -> Inv s'.

Lemma loop_settle : forall k (s : state) tret nl, head prob ewt_set tout itask st s -> Inv s ->
  g_mxstep c + 1 <= k + nl -> k <> 0 -> settles (fun f => solve_loop prob ewt_set k f s tout tret itask nl).
Proof.
  induction k as [|k IH]; intros s tret nl Hd Hi Hk Hz; [congruence|]. cbn [solve_loop].
  pose proof (in_wf s (hd_pieces _ _ _ _ _ _ Hd)) as Ws.
  refine (settles_bind (fun _ => pre_step prob ewt_set s tret nl) (fun f r => _) (settles_safe _ (pre_step_safe prob ewt_set False Qt s tret nl Ws)) _).
  intros [a|s1] (_ & Ep); [apply settles_const; eexists; reflexivity|].
  pose proof (pre_step_shell _ _ _ _ _ _ Ep) as (S1 & M1 & _).
  refine (settles_bind (fun f => step prob f s1) (fun f x => _) (Inv_step s tret nl s1 Hd Hi Ep) _).
  intros (s2 & r2) (fs & Es). cbv beta iota.
  pose proof (head_step _ _ _ _ _ _ _ _ _ _ _ _ Hd Ep Es) as P2. pose proof (in_wf s2 P2) as W2.
  destruct r2 as [u|e].
  - refine (settles_bind (fun f => post_step prob f s2 tout tret itask) (fun f x => _) (proj1 (Inv_post fs s tret nl s1 s2 u Hd Hi Ep Es)) _).
    intros ((s3 & t3) & r3) (fp & Ef). cbv beta iota.
    destruct r3 as [[]|e3]; try (apply settles_const; eexists; reflexivity).
    assert (Ha : post_step prob (Nat.max fs fp) s2 tout tret itask = Ret (s3, t3, Ok ContinueSteps)) by (eapply post_more; [|exact Ef]; lia).
    assert (Es' : step prob (Nat.max fs fp) s1 = Ret (s2, Ok u)) by (eapply step_settles; [exact Es|lia]).
    apply IH.
    + exact (next_head (Nat.max fs fp) _ _ _ _ _ _ _ _ _ _ _ Hd Ep Es' Ha).
    + exact (proj2 (Inv_post (Nat.max fs fp) s tret nl s1 s2 u Hd Hi Ep Es') s3 t3 Ha).
    + lia.
    + intros ->. destruct M1 as [M1|M1]; rewrite (in_mx s (hd_pieces _ _ _ _ _ _ Hd)) in M1; lia.
  - apply settles_safe. unfold step_failed. apply safe_bind; [apply (wf_gs prob False Qt); exact W2|]. intros (? & []) _; exact I.
Qed.

Lemma start_settle tret : settles (fun f => solve_start prob ewt_set f (task_set st tout itask) tout tret itask).
Proof.
  pose proof (task_set_shell prob st tout itask) as S0.
  assert (P0 : pieces prob ewt_set st (task_set st tout itask)) by exact (piece1 _ _ _ _ (p_shell _ _ _ _ S0)).
  pose proof (later_ok) as Hlt. pose proof (shell_refl prob (task_set st tout itask)) as Sr.
  set (st0 := task_set st tout itask) in *. clearbody st0. pose proof (in_wf _ P0) as W0. unfold solve_start.
  refine (settles_bind (fun _ => if nst st0 =? 0 then _ else _) (fun f r => _) _ _).
  - apply settles_safe. destruct (nst st0 =? 0) eqn:En; [|exact I]. apply Nat.eqb_eq in En.
    apply safe_bind; [apply (first_call_safe prob ewt_set False Qt); assumption|]. intros [(? & ?)|?] _; exact I.
  - intros [a|s1] (_ & E1); [apply settles_const; eexists; reflexivity|].
    assert (P1 : pieces prob ewt_set st s1 /\ (nst s1 <> 0 -> s1 = st0)).
    { destruct (nst st0 =? 0) eqn:En; [|injection E1 as <-; split; [exact P0|reflexivity]]. apply Nat.eqb_eq in En.
      apply bind_ret_inv in E1. destruct E1 as ([(s & m)|s] & E1 & E2); [discriminate|]. injection E2 as <-. split.
      - exact (pieces_trans _ _ _ _ _ P0 (piece1 _ _ _ _ (p_first_ok _ _ _ _ _ En E1))).
      - pose proof (first_call_frame _ _ _ _ _ E1) as (Fk & _). cbv zeta iota beta in Fk. unfold fkeep in Fk.
        intros Q. exfalso. apply Q. revert Fk. clear -En. intros Fk. injection Fk. congruence. }
    destruct P1 as (P1 & Q1). pose proof (in_wf _ P1) as W1.
    refine (settles_bind (fun _ => ls_perf _ _ _ _ _) (fun f r => _) (settles_safe _ (ls_perf_safe prob False Qt s1 false W1)) _).
    intros l (_ & El). cbv zeta. pose proof (still_perf prob _ _ _ El) as St.
    apply (ls_perf_false_shell prob) in El.
    pose proof (pieces_trans _ _ _ _ _ P1 (piece1 _ _ _ _ (p_shell _ _ _ _ El))) as P2.
    set (s2 := on_lp _ s1) in *. clearbody s2.
    destruct (0 <? nst s2) eqn:Ez; [|apply settles_const; eexists; reflexivity].
    apply Nat.ltb_lt in Ez. assert (Hz : nst s1 <> 0) by (rewrite <- (shell_nst _ _ _ El); lia). rewrite (Q1 Hz) in *.
    apply Hlt; [exact P2|exact St|exact El|lia].
Qed.

Lemma solve_settle fuel tret : g_mxstep c < fuel ->
  settles (fun f => solve prob ewt_set fuel f st tout tret itask).
Proof.
  intros Hf. destruct (settles_bind (fun f => solve_start prob ewt_set f (task_set st tout itask) tout tret itask)
    (fun f r => match r with inl a => Ret a | inr (s, t) => solve_loop prob ewt_set fuel f s tout t itask 0 end)
    (start_settle tret)) as (N & x & E).
  - intros [a|(s & t)] (f & Es); [apply settles_const; eexists; reflexivity|].
    assert (t = tret).
    { apply solve_start_pieces in Es. tauto. }
    subst t. apply loop_settle; [| |lia|lia]; [eapply enters_head; exact Es|exact (Inv_in f tret s Es)].
  - exists N, x. intros f L. rewrite solve_unfold. exact (E f L).
Qed.
End Life.
End Settle.
