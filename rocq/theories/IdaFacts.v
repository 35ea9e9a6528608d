(** * IdaFacts: what each step routine leaves unchanged, for every scalar *)
Require Import List Arith Bool Lia.
Import ListNotations.
Require Import Verif.Base Verif.Scalar Verif.Norms Verif.Newton Verif.IdaState Verif.IdaNls
  Verif.IdaCore Verif.BaseFacts Verif.NewtonFacts.

(** Inversion of [m = Ret x] for monadic code. *)
Ltac minv1 :=
  match goal with
  | H : Panic = Ret _ |- _ => discriminate H
  | H : Diverge = Ret _ |- _ => discriminate H
  | H : Ret _ = Panic |- _ => discriminate H
  | H : Ret _ = Diverge |- _ => discriminate H
  | H : Ret _ = Ret _ |- _ => injection H; clear H; intros; subst
  | H : bind _ _ = Ret _ |- _ =>
      apply bind_ret_inv in H; destruct H as (? & ? & H); cbv beta in H
  | H : match ?x with (_, _) => _ end = Ret _ |- _ => destruct x
  | H : match ?x with _ => _ end = Ret _ |- _ => destruct x eqn:?
  end.
Ltac minv := repeat (minv1; cbv zeta beta in * ).

Section Frames.
Context {T LSt NSt : Type} `{Scalar T} `{LSolver T LSt} `{NLSolver T NSt}.
Variable prob : problem T.
Notation n := (model_size prob).
Notation state := (ida T LSt NSt).

(** Fields no modelled function ever writes after [Ida::new]. *)
Definition cfg (st : state) :=
  (constraints_set st, suppressalg st, idv st, hin st, epcon st,
   (maxncf st, maxnef st, maxord st, mxstep st, hmax_inv st),
   (nrtfn st, rootdir st, mxgnull st, nni st)).
(** Fields written by [solve] itself only. *)
Definition outer (st : state) :=
  (setup_done st, tstop st, h0u st, tretlast st, eps_newt st, tolsf st).
(** Root-finding fields. *)
Definition rootst (st : state) :=
  (iroots st, (tlo st, thi st, trout st), (glo st, ghi st, grout st),
   (toutc st, ttol st, taskc st), (irfnd st, nge st, gactive st)).
(** Step data. *)
Definition stepst (st : state) :=
  ((phi st, psi st, alpha st, beta st, sigma st, gamma st),
   (kk st, kused st, knew st, phase st, ns st),
   (hh st, hused st, rr st, cjlast st, ee st, delta st),
   (nst st, ncfn st, netf st), nls st).
(** Everything of the nonlinear problem but the solution vectors. *)
Definition nlprest (s : nlprob T LSt) :=
  (yypredict s, yppredict s, (ewt s, savres s, tn s), (ss s, oldnrm s, toldel s),
   (nre s, nsetups s, lp s)).


(** Everything of the nonlinear problem a nonlinear solve leaves alone. *)
Definition nlpkeep (s : nlprob T LSt) :=
  (yypredict s, yppredict s, ewt s, tn s, toldel s,
   (cj (lp s), lp_sqrtn (lp s), lp_eplifac (lp s)),
   (nst0 (lp s), nni0 (lp s), ncfn0 (lp s), ncfl0 (lp s), nwarn (lp s))).

(** The solver object reaches the problem through its methods only: whatever
    all methods preserve, a solve preserves. *)
Definition nls_lawful : Prop :=
  forall (S : Type) (P : nlproblem T S) (Q : S -> Prop),
    preserves P Q ->
    forall size s x d y w tol call s' x' y' r,
      Q x -> nls_solve S P size s x d y w tol call = Ret (s', x', y', r) -> Q x'.

Lemma get_solution_frame (st st' : state) t r :
  get_solution prob st t = Ret (st', r) ->
  cfg st' = cfg st /\ outer st' = outer st /\ rootst st' = rootst st /\
  stepst st' = stepst st /\ nlprest (nlp st') = nlprest (nlp st).
Proof. unfold get_solution. intros E. cbv zeta in E. minv; auto. Qed.

Lemma set_coeffs_frame (st st' : state) ck :
  set_coeffs prob st = Ret (st', ck) ->
  cfg st' = cfg st /\ outer st' = outer st /\ rootst st' = rootst st /\
  dvals st' = dvals st /\ cvals st' = cvals st /\
  (kk st', kused st', knew st', phase st') = (kk st, kused st, knew st, phase st) /\
  (hh st', hused st', rr st', ee st', delta st') = (hh st, hused st, rr st, ee st, delta st) /\
  (nst st', ncfn st', netf st', nls st') = (nst st, ncfn st, netf st, nls st) /\
  nlp st' = set_lp (set_cj (cj (lp (nlp st'))) (lp (nlp st))) (nlp st).
Proof.
  unfold set_coeffs, compute_coeffs, leading_coeff, scale_phi. intros E.
  assert (Hb : exists k, bump_ns st = set_ns k st).
  { unfold bump_ns. destruct (sneqb _ _ || _); eexists; reflexivity. }
  destruct Hb as (k & Hb). rewrite Hb in E. clear Hb.
  cbv zeta in E. minv; repeat split.
Qed.

Lemma advance_tn_frame (st : state) :
  let st' := advance_tn st in
  cfg st' = cfg st /\ outer st' = outer st /\ rootst st' = rootst st /\
  dvals st' = dvals st /\ cvals st' = cvals st /\ stepst st' = stepst st /\
  nlp st' = set_tn (tn (nlp st')) (nlp st).
Proof.
  unfold advance_tn. cbv zeta. destruct (tstop _); [destruct (_ <? _)%sc|]; repeat split.
Qed.

Lemma predict_frame (st st' : state) :
  predict prob st = Ret st' ->
  cfg st' = cfg st /\ outer st' = outer st /\ rootst st' = rootst st /\
  dvals st' = dvals st /\ cvals st' = cvals st /\ stepst st' = stepst st /\
  nlp st' = set_yppredict (yppredict (nlp st')) (set_yypredict (yypredict (nlp st')) (nlp st)).
Proof. unfold predict. intros E. minv. repeat split. Qed.

Lemma nlpkeep_preserved (s0 : nlprob T LSt) :
  preserves (ida_nlproblem prob) (fun s => nlpkeep s = nlpkeep s0).
Proof.
  split; [|split; [|split]].
  - intros s y s' f r <- E. cbn in E. unfold nlp_sys in E. cbv zeta in E. minv. reflexivity.
  - intros s y f j s' r <- E. cbn in E. unfold nlp_setup, lp_setup in E. cbv zeta in E.
    destruct (n =? 0); minv; reflexivity.
  - intros s y b s' x r <- E. cbn in E. unfold nlp_solve, lp_solve in E. cbv zeta in E.
    destruct (ls_type (lp_ls (lp s))); minv;
      repeat match goal with r : result unit nat |- _ => destruct r end; reflexivity.
  - intros s i y d tol w s' r <- E. cbn in E. unfold nlp_ctest in E. cbv zeta in E.
    minv; reflexivity.
Qed.

Lemma nonlinear_solve_frame (Hl : nls_lawful) (st st' : state) r :
  nonlinear_solve prob st = Ret (st', r) ->
  cfg st' = cfg st /\ outer st' = outer st /\ rootst st' = rootst st /\
  dvals st' = dvals st /\ cvals st' = cvals st /\
  (phi st', psi st', alpha st', beta st', sigma st', gamma st')
    = (phi st, psi st, alpha st, beta st, sigma st, gamma st) /\
  (kk st', kused st', knew st', phase st', ns st') = (kk st, kused st, knew st, phase st, ns st) /\
  (hh st', hused st', rr st', cjlast st') = (hh st, hused st, rr st, cjlast st) /\
  (nst st', ncfn st', netf st') = (nst st, ncfn st, netf st) /\
  nlpkeep (nlp st') = nlpkeep (nlp st) /\
  match r with
  | Ok _ => yy (nlp st') = vadd n (yypredict (nlp st')) (ee st') /\
            yp (nlp st') = vscaled_add n (yppredict (nlp st')) (cj (lp (nlp st'))) (ee st') /\
            constraints_set st' = false
  | Err (ENls _) => True
  | Err _ => False
  end.
Proof.
  unfold nonlinear_solve. intros E.
  assert (Hb : exists x b, nls_prepare st = (set_nlp x st, b) /\ nlpkeep x = nlpkeep (nlp st)).
  { unfold nls_prepare. cbv zeta. destruct (nst st =? 0); destruct (sneqb _ _);
    eexists _, _; (split; [reflexivity|reflexivity]). }
  destruct Hb as (x & b & Hb & Hx). rewrite Hb in E. clear Hb.
  cbv zeta in E. minv; repeat split; auto;
  match goal with
  | E : nls_solve _ _ _ _ ?x _ _ _ _ _ = Ret (_, ?x', _, _) |- nlpkeep _ = _ =>
      transitivity (nlpkeep x); [|exact Hx];
      apply (Hl _ _ _ (nlpkeep_preserved x) _ _ _ _ _ _ _ _ _ _ _ _ eq_refl E)
  end.
Qed.

Lemma test_error_frame (st st' : state) ck ek ek1 r :
  test_error prob st ck = Ret (st', ek, ek1, r) ->
  cfg st' = cfg st /\ outer st' = outer st /\ rootst st' = rootst st /\
  dvals st' = dvals st /\ cvals st' = cvals st /\
  (phi st', psi st', alpha st', beta st', sigma st', gamma st')
    = (phi st, psi st, alpha st, beta st, sigma st, gamma st) /\
  (kk st', kused st', phase st', ns st') = (kk st, kused st, phase st, ns st) /\
  (hh st', hused st', rr st', cjlast st', ee st') = (hh st, hused st, rr st, cjlast st, ee st) /\
  (nst st', ncfn st', netf st', nls st') = (nst st, ncfn st, netf st, nls st) /\
  (knew st' = kk st \/ 2 <= kk st /\ knew st' = kk st - 1) /\
  match r with
  | Ok _ => (ck * wrms_norm (idv st) (ee st) (ewt (nlp st)) (suppressalg st) <=? sone)%sc = true /\
            nlp st' = nlp st
  | Err e => e = EIda TestFail /\
             (ck * wrms_norm (idv st) (ee st) (ewt (nlp st)) (suppressalg st) <=? sone)%sc = false /\
             nlp st' = set_lp (push_ev CFail (lp (nlp st))) (nlp st)
  end.
Proof.
  unfold test_error. intros E. cbv zeta in E. minv;
  repeat match goal with H : (_ <? _) = true |- _ => apply Nat.ltb_lt in H end;
  repeat split; cbn; auto; 
  match goal with
  | |- context [if ?b then _ else _] => destruct b; [right; split; [lia|reflexivity]|left; reflexivity]
  end.
Qed.

Lemma complete_step_frame (st st' : state) ek ek1 :
  complete_step prob st ek ek1 = Ret st' ->
  cfg st' = cfg st /\ outer st' = outer st /\ rootst st' = rootst st /\
  dvals st' = dvals st /\ cvals st' = cvals st /\
  (psi st', alpha st', beta st', sigma st', gamma st')
    = (psi st, alpha st, beta st, sigma st, gamma st) /\
  (kused st', knew st', ns st') = (kk st, knew st, ns st) /\
  (hused st', cjlast st', ee st', delta st') = (hh st, cjlast st, ee st, delta st) /\
  (nst st', ncfn st', netf st', nls st') = (nst st + 1, ncfn st, netf st, nls st) /\
  nlp st' = nlp st.
Proof.
  unfold complete_step, update_phi, choose_step. intros E. cbv zeta in E.
  apply bind_ret_inv in E. destruct E as (km1 & _ & E). cbv beta in E.
  destruct (_ || _) in E; minv; repeat split.
Qed.

Lemma step_init_frame (st st' : state) :
  step_init st = Ret st' ->
  cfg st' = cfg st /\ outer st' = outer st /\ rootst st' = rootst st /\
  dvals st' = dvals st /\ cvals st' = cvals st /\
  (phi st', alpha st', beta st', sigma st', gamma st', knew st')
    = (phi st, alpha st, beta st, sigma st, gamma st, knew st) /\
  (hh st', rr st', cjlast st', ee st', delta st') = (hh st, rr st, cjlast st, ee st, delta st) /\
  (nst st', ncfn st', netf st', nls st') = (nst st, ncfn st, netf st, nls st) /\
  nlp st' = set_lp (set_cj (cj (lp (nlp st'))) (lp (nlp st))) (nlp st) /\
  (nst st <> 0 -> st' = st).
Proof.
  unfold step_init. intros E. cbv zeta in E. minv; repeat split; try congruence.
  - intros Hn. apply Nat.eqb_eq in Heqb. lia.
  - destruct (nlp st') as [? ? ? ? ? ? ? ? ? ? ? ? []]; reflexivity.
Qed.

End Frames.
